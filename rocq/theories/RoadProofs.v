(** The signed distance of a point to the road edges. *)
From Coq Require Import Reals Lra Psatz List Lia Bool.
From Verif Require Import Base ResultLib MonadLib GeomModel GeomSpec GeomBase GeomDistProofs RoadModel RoadSpec.
Import ListNotations.
Open Scope R_scope.

(** ** Numbers *)
Lemma sign_cases x : (x < 0 /\ sign x = -1) \/ (x = 0 /\ sign x = 0) \/ (0 < x /\ sign x = 1).
Proof.
  unfold sign. destruct (rltb 0 x) eqn:E1.
  - apply rltb_iff in E1. right. right. split; [assumption|reflexivity].
  - apply rltb_false in E1. destruct (rltb x 0) eqn:E2.
    + apply rltb_iff in E2. left. split; [assumption|reflexivity].
    + apply rltb_false in E2. right. left. split; [lra|reflexivity].
Qed.
Lemma clip01_cases t : (t < 0 /\ clip01 t = 0) \/ (0 <= t <= 1 /\ clip01 t = t) \/ (1 < t /\ clip01 t = 1).
Proof.
  unfold clip01, Rmin, Rmax. destruct (Rle_dec t 0) as [H|H]; destruct (Rle_dec _ 1) as [H'|H']; try lra.
Qed.
Lemma clip01_range t : 0 <= clip01 t <= 1.
Proof. destruct (clip01_cases t) as [[H ->]|[[H ->]|[H ->]]]; lra. Qed.
Lemma clip01_nearest t s : 0 <= s <= 1 -> (clip01 t - t) * (clip01 t - t) <= (s - t) * (s - t) /\
  ((s - t) * (s - t) <= (clip01 t - t) * (clip01 t - t) -> s = clip01 t).
Proof.
  intros Hs. destruct (clip01_cases t) as [[H ->]|[[H ->]|[H ->]]]; split.
  - assert (0 <= s * (s - 2 * t)) by (apply Rmult_le_pos; lra). lra.
  - intros K. destruct (Req_EM_T s 0) as [E|E]; [assumption|]. assert (0 < s * (s - 2 * t)) by (apply Rmult_lt_0_compat; lra). lra.
  - assert (Q := Rle_0_sqr (s - t)). unfold Rsqr in Q. lra.
  - intros K. apply Rminus_diag_uniq. apply Rsqr_0_uniq. assert (Q := Rle_0_sqr (s - t)). unfold Rsqr in *. lra.
  - assert (0 <= (1 - s) * (2 * t - 1 - s)) by (apply Rmult_le_pos; lra). lra.
  - intros K. destruct (Req_EM_T s 1) as [E|E]; [assumption|].
    assert (0 < (1 - s) * (2 * t - 1 - s)) by (apply Rmult_lt_0_compat; lra). lra.
Qed.

(** ** The foot on a segment *)
Definition part (a b q : pt3) : R :=
  divide_no_nan (dot (psub (xy q) (xy a)) (psub (xy b) (xy a))) (dot (psub (xy b) (xy a)) (psub (xy b) (xy a))).
Definition the_foot (a b q : pt3) : pt3 := at_part a b (clip01 (part a b q)).
Lemma seg_pos a b : xy a <> xy b -> 0 < dot (psub (xy b) (xy a)) (psub (xy b) (xy a)).
Proof.
  intros N. assert (P := norm_pos (psub (xy b) (xy a))). assert (S := norm_sqr (psub (xy b) (xy a))).
  unfold dot. rewrite <- S. assert (0 < norm (psub (xy b) (xy a))) by (apply P; rewrite psub_zero; congruence). nra.
Qed.
Lemma part_eq a b q : xy a <> xy b ->
  part a b q * dot (psub (xy b) (xy a)) (psub (xy b) (xy a)) = dot (psub (xy q) (xy a)) (psub (xy b) (xy a)).
Proof.
  intros N. assert (P := seg_pos a b N). unfold part, divide_no_nan. destruct (Req_EM_T _ 0); [lra|]. field. lra.
Qed.
Lemma planar_sqr q f : planar q f * planar q f = (px q - px f) * (px q - px f) + (py q - py f) * (py q - py f).
Proof. unfold planar. rewrite dist_sqr. reflexivity. Qed.
Lemma planar_nonneg q f : 0 <= planar q f. Proof. apply dist_nonneg. Qed.
Lemma planar_at a b q s : xy a <> xy b ->
  let E := dot (psub (xy b) (xy a)) (psub (xy b) (xy a)) in
  planar q (at_part a b s) * planar q (at_part a b s) =
  planar q a * planar q a - part a b q * part a b q * E + E * ((s - part a b q) * (s - part a b q)).
Proof.
  intros N E. rewrite !planar_sqr. assert (H := part_eq a b q N). fold E in H.
  replace (_ - part a b q * part a b q * E + E * ((s - part a b q) * (s - part a b q)))
    with ((px q - px a) * (px q - px a) + (py q - py a) * (py q - py a) + s * s * E - 2 * s * (part a b q * E)) by ring.
  rewrite H. unfold E, dot, psub, at_part, xy. cbn [fst snd px py]. ring.
Qed.
Lemma the_foot_ok a b q : xy a <> xy b -> foot a b q (the_foot a b q).
Proof.
  intros N. exists (clip01 (part a b q)). split; [apply clip01_range|]. split; [reflexivity|]. intros s Hs.
  apply sqr_le; [apply planar_nonneg|]. unfold the_foot. rewrite !planar_at by assumption.
  assert (P := seg_pos a b N). assert (C := proj1 (clip01_nearest (part a b q) s Hs)). nra.
Qed.
Lemma foot_unique a b q f : xy a <> xy b -> foot a b q f -> f = the_foot a b q.
Proof.
  intros N [s [Hs [-> Hmin]]]. unfold the_foot. f_equal. apply clip01_nearest; [assumption|].
  assert (H := Hmin (clip01 (part a b q)) (clip01_range _)).
  assert (P0 := planar_nonneg q (at_part a b s)). assert (P1 := planar_nonneg q (at_part a b (clip01 (part a b q)))).
  assert (S : planar q (at_part a b s) * planar q (at_part a b s) <=
              planar q (at_part a b (clip01 (part a b q))) * planar q (at_part a b (clip01 (part a b q)))) by nra.
  rewrite !planar_at in S by assumption. assert (P := seg_pos a b N).
  apply Rmult_le_reg_l with (dot (psub (xy b) (xy a)) (psub (xy b) (xy a))); lra.
Qed.
Lemma past_start_iff a b q : xy a <> xy b -> past_start a b q <-> part a b q < 0.
Proof.
  intros N. assert (P := seg_pos a b N). assert (H := part_eq a b q N). unfold past_start.
  replace ((px q - px a) * (px b - px a) + (py q - py a) * (py b - py a)) with (dot (psub (xy q) (xy a)) (psub (xy b) (xy a)))
    by (unfold dot, psub, xy; cbn [fst snd]; ring). rewrite <- H. split; intros; nra.
Qed.
Lemma past_end_iff a b q : xy a <> xy b -> past_end a b q <-> 1 < part a b q.
Proof.
  intros N. assert (P := seg_pos a b N). assert (H := part_eq a b q N). unfold past_end, past_start.
  replace ((px q - px b) * (px a - px b) + (py q - py b) * (py a - py b))
    with (dot (psub (xy b) (xy a)) (psub (xy b) (xy a)) - dot (psub (xy q) (xy a)) (psub (xy b) (xy a)))
    by (unfold dot, psub, xy; cbn [fst snd]; ring). rewrite <- H. split; intros; nra.
Qed.

(** ** Sides *)
Definition side_of (a b q : pt3) : R := sign (cross (psub (xy q) (xy a)) (psub (xy b) (xy a))).
Lemma side_of_cases a b q : (0 < turn3 a b q /\ side_of a b q = -1) \/ (turn3 a b q = 0 /\ side_of a b q = 0) \/
  (turn3 a b q < 0 /\ side_of a b q = 1).
Proof.
  unfold side_of. assert (E : cross (psub (xy q) (xy a)) (psub (xy b) (xy a)) = - turn3 a b q)
    by (unfold cross, psub, turn3, turn, xy; cbn [fst snd]; ring).
  destruct (sign_cases (cross (psub (xy q) (xy a)) (psub (xy b) (xy a)))) as [[H ->]|[[H ->]|[H ->]]]; rewrite E in H;
    [left|right; left|right; right]; split; lra.
Qed.
Lemma cone_solve c v b q s t :
  xy q = (px v + s * (px c - px v) + t * (px b - px v), py v + s * (py c - py v) + t * (py b - py v)) ->
  turn3 c v q = t * turn3 c v b /\ turn3 v b q = s * turn3 c v b.
Proof.
  unfold turn3, turn. intros E. rewrite E. unfold xy. cbn [fst snd]. split; ring.
Qed.
Lemma cone_exists c v b q : turn3 c v b <> 0 ->
  xy q = (px v + turn3 v b q / turn3 c v b * (px c - px v) + turn3 c v q / turn3 c v b * (px b - px v),
          py v + turn3 v b q / turn3 c v b * (py c - py v) + turn3 c v q / turn3 c v b * (py b - py v)).
Proof.
  intros N. unfold turn3, turn, xy in *. cbn [fst snd] in *. f_equal; field; assumption.
Qed.
Lemma in_cone_iff c v b q : turn3 c v b <> 0 -> in_cone c v b q <->
  0 <= turn3 v b q / turn3 c v b /\ 0 <= turn3 c v q / turn3 c v b.
Proof.
  intros N. split.
  - intros [s [t [Hs [Ht E]]]]. destruct (cone_solve _ _ _ _ _ _ E) as [E1 E2]. rewrite E1, E2. split.
    + replace (s * turn3 c v b / turn3 c v b) with s by (field; assumption). assumption.
    + replace (t * turn3 c v b / turn3 c v b) with t by (field; assumption). assumption.
  - intros [H1 H2]. exists (turn3 v b q / turn3 c v b), (turn3 c v q / turn3 c v b).
    split; [assumption|]. split; [assumption|]. now apply cone_exists.
Qed.
Lemma in_open_cone_iff c v b q : turn3 c v b <> 0 -> in_open_cone c v b q <->
  0 < turn3 v b q / turn3 c v b /\ 0 < turn3 c v q / turn3 c v b.
Proof.
  intros N. split.
  - intros [s [t [Hs [Ht E]]]]. destruct (cone_solve _ _ _ _ _ _ E) as [E1 E2]. rewrite E1, E2. split.
    + replace (s * turn3 c v b / turn3 c v b) with s by (field; assumption). assumption.
    + replace (t * turn3 c v b / turn3 c v b) with t by (field; assumption). assumption.
  - intros [H1 H2]. exists (turn3 v b q / turn3 c v b), (turn3 c v q / turn3 c v b).
    split; [assumption|]. split; [assumption|]. now apply cone_exists.
Qed.
Lemma div_sign x y : 0 < y -> (0 <= x / y <-> 0 <= x) /\ (0 < x / y <-> 0 < x).
Proof.
  intros Hy. assert (E : x = x / y * y) by (field; lra). assert (0 < / y) by (now apply Rinv_0_lt_compat).
  split; split; intros H'; try (rewrite E; nra); unfold Rdiv; nra.
Qed.
Lemma div_sign_neg x y : y < 0 -> (0 <= x / y <-> x <= 0) /\ (0 < x / y <-> x < 0).
Proof.
  intros Hy. destruct (div_sign (- x) (- y) ltac:(lra)) as [H1 H2].
  replace (- x / - y) with (x / y) in * by (field; lra). split; [rewrite H1|rewrite H2]; split; lra.
Qed.
(** The sign at a corner. *)
Definition corner_sign (convex : bool) (s1 s2 : R) : R := if convex then Rmax s1 s2 else Rmin s1 s2.
Lemma corner_sign_ok c v b q x : turn3 c v b <> 0 -> x = true <-> 0 < turn3 c v b ->
  let s := corner_sign x (side_of v b q) (side_of c v q) in
  (s = -1 \/ s = 0 \/ s = 1) /\ (s = -1 <-> left_of_corner c v b q) /\ (s = 1 <-> right_of_corner c v b q).
Proof.
  intros N Hx s.
  assert (HL : left_of_corner c v b q <-> (0 < turn3 c v b /\ 0 < turn3 v b q /\ 0 < turn3 c v q) \/
             (turn3 c v b < 0 /\ (0 < turn3 v b q \/ 0 < turn3 c v q))).
  { unfold left_of_corner. rewrite in_cone_iff, in_open_cone_iff by assumption. split.
    - intros [[H [H1 H2]]|[H H1]].
      + left. split; [assumption|]. split; now apply (proj2 (div_sign _ _ H)).
      + right. split; [assumption|]. rewrite !(proj1 (div_sign_neg _ _ H)) in H1.
        destruct (Rlt_dec 0 (turn3 v b q)); [now left|]. right. apply Rnot_le_lt. intros C. apply H1. lra.
    - intros [[H [H1 H2]]|[H H1]].
      + left. split; [assumption|]. split; now apply (proj2 (div_sign _ _ H)).
      + right. split; [assumption|]. rewrite !(proj1 (div_sign_neg _ _ H)). lra. }
  assert (HR : right_of_corner c v b q <-> (0 < turn3 c v b /\ (turn3 v b q < 0 \/ turn3 c v q < 0)) \/
             (turn3 c v b < 0 /\ turn3 v b q < 0 /\ turn3 c v q < 0)).
  { unfold right_of_corner. rewrite in_cone_iff, in_open_cone_iff by assumption. split.
    - intros [[H H1]|[H [H1 H2]]].
      + left. split; [assumption|]. rewrite !(proj1 (div_sign _ _ H)) in H1.
        destruct (Rlt_dec (turn3 v b q) 0); [now left|]. right. apply Rnot_le_lt. intros C. apply H1. lra.
      + right. split; [assumption|]. split; now apply (proj2 (div_sign_neg _ _ H)).
    - intros [[H H1]|[H [H1 H2]]].
      + left. split; [assumption|]. rewrite !(proj1 (div_sign _ _ H)). lra.
      + right. split; [assumption|]. split; now apply (proj2 (div_sign_neg _ _ H)). }
  rewrite HL, HR. unfold s, corner_sign, Rmax, Rmin.
  destruct (side_of_cases v b q) as [[H1 ->]|[[H1 ->]|[H1 ->]]]; destruct (side_of_cases c v q) as [[H2 ->]|[[H2 ->]|[H2 ->]]];
    (destruct x; [assert (T : 0 < turn3 c v b) by (now apply Hx)|
                  assert (T : turn3 c v b < 0) by (destruct (Rlt_dec 0 (turn3 c v b)) as [K|K]; [apply Hx in K; discriminate|lra])]);
    destruct (Rle_dec _ _); repeat split; try lra; intros [[K1 K2]|[K1 K2]]; lra.
Qed.

(** ** Rows *)
Lemma pad_length n p : (length p <= n)%nat -> length (pad n p) = n.
Proof. intros H. unfold pad. rewrite app_length, map_length, repeat_length. lia. Qed.
Lemma pad_nth n p i a : nth_error p i = Some a -> nth i (pad n p) (origin3, false) = (a, true).
Proof.
  intros H. unfold pad. assert (L : (i < length p)%nat) by (apply nth_error_Some; congruence).
  rewrite app_nth1 by (now rewrite map_length). apply nth_error_nth. now apply (map_nth_error (fun x => (x, true))).
Qed.
Lemma pad_beyond n p i : (length p <= i)%nat -> nth i (pad n p) (origin3, false) = (origin3, false).
Proof.
  intros H. unfold pad. rewrite app_nth2 by (now rewrite map_length). rewrite map_length.
  destruct (Nat.lt_ge_cases (i - length p) (n - length p)) as [L|L].
  - rewrite nth_repeat. reflexivity.
  - apply nth_overflow. now rewrite repeat_length.
Qed.
Section PadRow.
Variables (n : nat) (p : polyline) (q : pt3).
Notation r := (pad n p).
Lemma row_start i a : nth_error p i = Some a -> start r i = a.
Proof. intros H. unfold start. now rewrite (pad_nth n p i a H). Qed.
Lemma row_end i a : nth_error p (S i) = Some a -> end_ r i = a.
Proof. intros H. unfold end_. now rewrite (pad_nth n p (S i) a H). Qed.
Lemma row_valid i : segment_valid r i = true <-> exists a b, is_segment p i a b.
Proof.
  unfold segment_valid, is_segment. rewrite andb_true_iff. split.
  - intros [_ H]. destruct (nth_error p (S i)) as [b|] eqn:E.
    + destruct (nth_error p i) as [a|] eqn:E'; [exists a, b; auto|]. exfalso.
      apply nth_error_None in E'. assert (S i < length p)%nat by (apply nth_error_Some; congruence). lia.
    + apply nth_error_None in E. rewrite pad_beyond in H by assumption. discriminate.
  - intros [a [b [Ha Hb]]]. rewrite (pad_nth n p i a Ha), (pad_nth n p (S i) b Hb). auto.
Qed.
Section Seg.
Variables (i : nat) (a b : pt3).
Hypothesis Hab : is_segment p i a b.
Lemma row_s2p : start_to_point r q i = psub (xy q) (xy a).
Proof. unfold start_to_point. now rewrite (row_start i a (proj1 Hab)). Qed.
Lemma row_s2e : start_to_end r i = psub (xy b) (xy a).
Proof. unfold start_to_end. now rewrite (row_start i a (proj1 Hab)), (row_end i b (proj2 Hab)). Qed.
Lemma row_rel : rel_t r q i = part a b q.
Proof. unfold rel_t. now rewrite row_s2p, row_s2e. Qed.
Lemma row_side : side r q i = side_of a b q.
Proof. unfold side. now rewrite row_s2p, row_s2e. Qed.
Lemma row_d2 : distance_2d r q i = planar q (the_foot a b q).
Proof.
  unfold distance_2d, segment_to_point. rewrite row_s2p, row_s2e, row_rel. apply norm_unique; [apply planar_nonneg|].
  rewrite planar_sqr. unfold the_foot, at_part, xy, psub. cbn [px py fst snd]. ring.
Qed.
Lemma row_d3 : distance_3d 3 r q i = stretched q (the_foot a b q).
Proof.
  unfold distance_3d, segment_to_point. rewrite row_s2p, row_s2e, row_rel, (row_start i a (proj1 Hab)), (row_end i b (proj2 Hab)).
  unfold stretched, the_foot, at_part, psub, xy. cbn [px py pz fst snd]. f_equal. ring.
Qed.
End Seg.
End PadRow.

(** ** The selected segment *)
Lemma first_min_spec l e : first_min l = Ok e -> In e l /\ forall x, In x l -> fst e <= fst x.
Proof.
  destruct l as [|a l]; [discriminate|]. cbn [first_min]. intros H. apply Ok_inj in H. subst e.
  assert (G : forall l a, let m := fold_left (fun best x : R * (R * R) => if rltb (fst x) (fst best) then x else best) l a in
    (m = a \/ In m l) /\ fst m <= fst a /\ forall x, In x l -> fst m <= fst x).
  { clear. induction l as [|y l IH]; intros a m; unfold m; cbn [fold_left].
    - split; [now left|]. split; [lra|]. intros x [].
    - destruct (rltb (fst y) (fst a)) eqn:E.
      + apply rltb_iff in E. destruct (IH y) as [H1 [H2 H3]]. cbv zeta in *. split; [destruct H1 as [->|H1]; right; [now left|now right]|].
        split; [lra|]. intros x [<-|Hx]; [assumption|now apply H3].
      + apply rltb_false in E. destruct (IH a) as [H1 [H2 H3]]. cbv zeta in *. split; [destruct H1 as [->|H1]; [now left|right; now right]|].
        split; [lra|]. intros x [<-|Hx]; [lra|now apply H3]. }
  destruct (G l a) as [H1 [H2 H3]]. cbv zeta in *. split; [destruct H1 as [H1|H1]; [left; now symmetry|now right]|].
  intros x [<-|Hx]; [assumption|now apply H3].
Qed.
Lemma max_length_acc {A} (l : list (list A)) : forall m, (m <= fold_left (fun m p => Nat.max m (length p)) l m)%nat /\
  (forall p, In p l -> (length p <= fold_left (fun m p => Nat.max m (length p)) l m)%nat) /\
  (fold_left (fun m p => Nat.max m (length p)) l m = m \/ exists p, In p l /\ fold_left (fun m p => Nat.max m (length p)) l m = length p).
Proof.
  induction l as [|x l IH]; intros m; cbn [fold_left].
  - split; [lia|]. split; [intros p []|now left].
  - destruct (IH (Nat.max m (length x))) as [H1 [H2 H3]]. split; [lia|]. split.
    + intros p [<-|Hp]; [lia|now apply H2].
    + destruct H3 as [H3|[p [Hp H3]]].
      * rewrite H3. destruct (Nat.max_spec m (length x)) as [[_ ->]|[_ ->]]; [right; exists x; split; [now left|reflexivity]|now left].
      * right. exists p. split; [now right|assumption].
Qed.
Lemma max_length_le {A} (l : list (list A)) p : In p l -> (length p <= max_length l)%nat.
Proof. intros H. unfold max_length. now apply (proj1 (proj2 (max_length_acc l 0%nat))). Qed.
Lemma kept_in {A} (l : list (list A)) p : In p (kept l) <-> In p l /\ (2 <= length p)%nat.
Proof. unfold kept. rewrite filter_In, Nat.leb_le. reflexivity. Qed.
Lemma max_length_kept {A} (l : list (list A)) p : (forall p', In p' l -> (length p' <= length p)%nat) -> In p (kept l) ->
  max_length (kept l) = length p.
Proof.
  intros H Hp. apply Nat.le_antisymm; [|now apply max_length_le].
  unfold max_length. destruct (max_length_acc (kept l) 0%nat) as [_ [_ [E|[p' [Hp' E]]]]]; rewrite E; [lia|].
  apply H. now apply kept_in in Hp'.
Qed.
Lemma road_rows_spec road rows : road_rows road = Ok rows ->
  rows = map (fun p => (is_cyclic p, pad (max_length (kept road)) p)) (kept road) /\ kept road <> [].
Proof.
  unfold road_rows, tensorize. intros H. destruct (kept road) as [|p k] eqn:E; [discriminate|]. cbn [bind] in H.
  apply Ok_inj in H. subst rows. split; [|discriminate].
  assert (G : forall {A B C} (f : A -> B) (g : A -> C) l, combine (map f l) (map g l) = map (fun x => (f x, g x)) l).
  { clear. intros A B C f g l. induction l as [|x l IH]; [reflexivity|]. cbn [map combine]. now rewrite IH. }
  apply (G _ _ _ is_cyclic (pad (max_length (p :: k)))).
Qed.
Lemma segment_kept road p i a b : In p road -> is_segment p i a b -> In p (kept road) /\ (S i < length p)%nat.
Proof.
  intros Hp [_ Hb]. assert (L : (S i < length p)%nat) by (apply nth_error_Some; congruence).
  split; [apply kept_in; split; [assumption|lia]|assumption].
Qed.

Section Query.
Variables (road : list polyline) (rows : list (bool * RoadModel.row)) (q : pt3) (d : R).
Hypothesis Hproper : proper road.
Hypothesis Hrows : road_rows road = Ok rows.
Hypothesis Hd : signed_distance_to_polylines 3 rows q = Ok d.
Hypothesis Hnear : exists a b f, segment_in road a b /\ foot a b q f /\ stretched q f < 10000000000.
Notation N := (max_length (kept road)).

Lemma selected : exists p i a b, In p road /\ is_segment p i a b /\ nearest road q a b (the_foot a b q) /\
  d = sign_to_segment (is_cyclic p) (pad N p) q i * planar q (the_foot a b q).
Proof.
  unfold signed_distance_to_polylines in Hd. destruct (first_min _) as [e|] eqn:E; [|discriminate]. cbn [bind] in Hd.
  apply Ok_inj in Hd. destruct (road_rows_spec road rows Hrows) as [Er _]. apply first_min_spec in E. destruct E as [Hin Hmin].
  assert (Hseg : forall a b, segment_in road a b -> exists s, In (stretched q (the_foot a b q), (s, planar q (the_foot a b q)))
     (concat (map (fun cr => row_entries 3 (fst cr) (snd cr) q) rows))).
  { intros a b [p [i [Hp Hab]]]. destruct (segment_kept _ _ _ _ _ Hp Hab) as [Hk L]. assert (LN := max_length_le (kept road) p Hk).
    exists (sign_to_segment (is_cyclic p) (pad N p) q i). apply in_concat. exists (row_entries 3 (is_cyclic p) (pad N p) q). split.
    - apply in_map_iff. exists (is_cyclic p, pad N p). split; [reflexivity|]. rewrite Er. apply in_map_iff. exists p. now split.
    - unfold row_entries. apply in_map_iff. exists i. split.
      + unfold segment_entry. rewrite (proj2 (row_valid N p i)) by (exists a, b; assumption).
        now rewrite (row_d3 N p q i a b Hab), (row_d2 N p q i a b Hab).
      + apply in_seq. unfold num_segments. rewrite pad_length by assumption. lia. }
  apply in_concat in Hin. destruct Hin as [es [Hes He]]. apply in_map_iff in Hes. destruct Hes as [cr [<- Hcr]].
  rewrite Er in Hcr. apply in_map_iff in Hcr. destruct Hcr as [p [<- Hp]]. cbn [fst snd] in He.
  unfold row_entries in He. apply in_map_iff in He. destruct He as [i [He Hi]].
  assert (Hp' : In p road) by (now apply kept_in in Hp).
  unfold segment_entry in He. destruct (segment_valid (pad N p) i) eqn:V.
  - apply row_valid in V. destruct V as [a [b Hab]]. exists p, i, a, b. split; [assumption|]. split; [assumption|].
    assert (Nab : xy a <> xy b) by (apply Hproper; exists p, i; auto).
    rewrite (row_d3 N p q i a b Hab), (row_d2 N p q i a b Hab) in He. subst e. cbn [fst snd] in *. split; [|now symmetry].
    split; [exists p, i; auto|]. split; [now apply the_foot_ok|]. intros a' b' f' Hs Hf.
    assert (Nab' : xy a' <> xy b') by (now apply Hproper). rewrite (foot_unique a' b' q f' Nab' Hf).
    destruct (Hseg a' b' Hs) as [s Hin]. exact (Hmin _ Hin).
  - exfalso. destruct Hnear as [a [b [f [Hs [Hf Hlt]]]]]. assert (Nab : xy a <> xy b) by (now apply Hproper).
    destruct (Hseg a b Hs) as [s Hin]. apply Hmin in Hin. subst e. cbn [fst] in Hin. unfold EXTREMELY_LARGE_DISTANCE in Hin.
    rewrite <- (foot_unique a b q f Nab Hf) in Hin. lra.
Qed.
End Query.

(** The sign of the selected segment. *)
Section Sign.
Variables (n : nat) (p : polyline) (q a b : pt3) (i : nat).
Hypothesis Hn : (length p <= n)%nat.
Hypothesis Hab : is_segment p i a b.
Hypothesis Nab : xy a <> xy b.
Notation cyc := (is_cyclic p).
Notation S_ := (sign_to_segment cyc (pad n p) q i).

Lemma seg_len : (S i < length p)%nat. Proof. apply nth_error_Some. now rewrite (proj2 Hab). Qed.
Lemma rows_segments : num_segments (pad n p) = (n - 1)%nat. Proof. unfold num_segments. now rewrite pad_length. Qed.
Lemma sign_between : ~ past_start a b q -> ~ past_end a b q -> S_ = side_of a b q.
Proof.
  intros H1 H2. unfold sign_to_segment. rewrite (row_rel n p q i a b Hab), (row_side n p q i a b Hab).
  rewrite past_start_iff in H1 by assumption. rewrite past_end_iff in H2 by assumption.
  rewrite (proj2 (rltb_false (part a b q) 0)) by lra. rewrite (proj2 (rltb_false 1 (part a b q))) by lra. reflexivity.
Qed.
Lemma sign_start_general : past_start a b q ->
  S_ = if segment_valid (pad n p) (prior cyc (pad n p) i) then sign_if_before cyc (pad n p) q i else side_of a b q.
Proof.
  intros H1. unfold sign_to_segment. rewrite (row_rel n p q i a b Hab), (row_side n p q i a b Hab).
  rewrite past_start_iff in H1 by assumption. rewrite (proj2 (rltb_iff (part a b q) 0)) by lra. cbn [andb].
  destruct (segment_valid _ _); [reflexivity|]. rewrite (proj2 (rltb_false 1 (part a b q))) by lra. reflexivity.
Qed.
Lemma sign_end_general : past_end a b q ->
  S_ = if segment_valid (pad n p) (next cyc (pad n p) i) then sign_if_after cyc (pad n p) q i else side_of a b q.
Proof.
  intros H1. unfold sign_to_segment. rewrite (row_rel n p q i a b Hab), (row_side n p q i a b Hab).
  rewrite past_end_iff in H1 by assumption. rewrite (proj2 (rltb_false (part a b q) 0)) by lra. cbn [andb].
  rewrite (proj2 (rltb_iff 1 (part a b q))) by lra. reflexivity.
Qed.
Lemma turn_rows c v w : cross (psub (xy v) (xy c)) (psub (xy w) (xy v)) = turn3 c v w.
Proof. unfold cross, psub, turn3, turn, xy. cbn [fst snd]. ring. Qed.
Definition convex_at (c v w : pt3) : bool := rltb 0 (turn3 c v w).
Lemma convex_at_iff c v w : convex_at c v w = true <-> 0 < turn3 c v w. Proof. apply rltb_iff. Qed.
(** An inner start: the previous segment. *)
Lemma sign_start_inner j c : past_start a b q -> i = S j -> nth_error p j = Some c ->
  S_ = corner_sign (convex_at c a b) (side_of a b q) (side_of c a q).
Proof.
  intros H1 Hi Hc. rewrite sign_start_general by assumption.
  assert (Hca : is_segment p j c a) by (split; [assumption|rewrite <- Hi; apply Hab]).
  assert (Ep : prior cyc (pad n p) i = j) by (rewrite Hi; reflexivity).
  rewrite Ep, (proj2 (row_valid n p j)) by (exists c, a; assumption).
  unfold sign_if_before, convex_before. rewrite Ep.
  assert (Eb : before (pad n p) i = j) by (rewrite Hi; reflexivity).
  rewrite Eb, (row_s2e n p j c a Hca), (row_s2e n p i a b Hab), turn_rows, (row_side n p q i a b Hab), (row_side n p q j c a Hca).
  reflexivity.
Qed.
Lemma sign_end_inner c : past_end a b q -> nth_error p (S (S i)) = Some c ->
  S_ = corner_sign (convex_at a b c) (side_of a b q) (side_of b c q).
Proof.
  intros H1 Hc. rewrite sign_end_general by assumption.
  assert (Hbc : is_segment p (S i) b c) by (split; [apply Hab|assumption]).
  assert (L : (S (S i) < length p)%nat) by (apply nth_error_Some; congruence).
  assert (Ei : Nat.eqb (S i) (num_segments (pad n p)) = false) by (apply Nat.eqb_neq; rewrite rows_segments; lia).
  assert (Ep : next cyc (pad n p) i = S i) by (unfold next; now rewrite Ei).
  rewrite Ep, (proj2 (row_valid n p (S i))) by (exists b, c; assumption).
  unfold sign_if_after, convex_after. rewrite Ep.
  assert (Eb : after (pad n p) i = S i) by (unfold after; now rewrite Ei).
  rewrite Eb, (row_s2e n p (S i) b c Hbc), (row_s2e n p i a b Hab), turn_rows, (row_side n p q i a b Hab), (row_side n p q (S i) b c Hbc).
  reflexivity.
Qed.
(** Free ends. *)
Lemma sign_start_free : past_start a b q -> i = 0%nat -> cyc = false -> S_ = side_of a b q.
Proof.
  intros H1 Hi Hc. rewrite sign_start_general by assumption. destruct (segment_valid _ _); [|reflexivity].
  unfold sign_if_before. assert (Ep : prior cyc (pad n p) i = i) by (rewrite Hi, Hc; reflexivity). rewrite Ep.
  rewrite (row_side n p q i a b Hab). destruct (convex_before _ _); unfold Rmax, Rmin; destruct (Rle_dec _ _); reflexivity.
Qed.
Lemma sign_end_free : past_end a b q -> S (S i) = length p -> cyc = false -> S_ = side_of a b q.
Proof.
  intros H1 Hi Hc. rewrite sign_end_general by assumption. destruct (segment_valid _ _) eqn:V; [|reflexivity].
  unfold sign_if_after. unfold next in *. destruct (Nat.eqb_spec (S i) (num_segments (pad n p))) as [E|E].
  - rewrite Hc in *. rewrite (row_side n p q i a b Hab). destruct (convex_after _ _); unfold Rmax, Rmin; destruct (Rle_dec _ _); reflexivity.
  - exfalso. apply row_valid in V. destruct V as [x [y [_ Hy]]]. assert (S (S i) < length p)%nat by (apply nth_error_Some; congruence). lia.
Qed.
(** The closing corner of a closed polyline of full length. *)
Lemma cyclic_closed : hd origin3 p = last p origin3 -> cyc = true.
Proof. intros E. unfold is_cyclic. rewrite E. apply rltb_iff. unfold CYCLIC_TOLERANCE. lra. Qed.
Lemma sign_start_closed c : past_start a b q -> i = 0%nat -> n = length p -> hd origin3 p = last p origin3 ->
  nth_error p (length p - 2) = Some c -> S_ = corner_sign (convex_at c a b) (side_of a b q) (side_of c a q).
Proof.
  intros H1 Hi Hfull Hcl Hc. rewrite sign_start_general by assumption. assert (Cy := cyclic_closed Hcl). assert (L := seg_len).
  assert (Ha : nth_error p (S (length p - 2)) = Some a).
  { destruct Hab as [Ha _]. rewrite Hi in Ha. replace (S (length p - 2)) with (length p - 1)%nat by lia.
    assert (hd origin3 p = a) by (destruct p; [discriminate|cbn in Ha; now injection Ha as ->]).
    assert (Ll : nth (length p - 1) p origin3 = last p origin3).
    { clear. induction p as [|x l IH]; [reflexivity|]. destruct l as [|y l]; [reflexivity|].
      change (last (x :: y :: l) origin3) with (last (y :: l) origin3). rewrite <- IH. cbn [length].
      replace (S (S (length l)) - 1)%nat with (S (S (length l) - 1)) by lia. reflexivity. }
    rewrite nth_error_nth' with (d := origin3) by lia. congruence. }
  assert (Hca : is_segment p (length p - 2) c a) by (now split).
  assert (Ep : prior cyc (pad n p) i = (length p - 2)%nat) by (rewrite Hi, Cy; unfold prior; rewrite rows_segments; lia).
  rewrite Ep, (proj2 (row_valid n p (length p - 2))) by (exists c, a; assumption).
  unfold sign_if_before, convex_before. rewrite Ep.
  assert (Eb : before (pad n p) i = (length p - 2)%nat) by (rewrite Hi; unfold before; rewrite rows_segments; lia).
  rewrite Eb, (row_s2e n p _ c a Hca), (row_s2e n p i a b Hab), turn_rows, (row_side n p q i a b Hab), (row_side n p q _ c a Hca).
  reflexivity.
Qed.
Lemma sign_end_closed c : past_end a b q -> S (S i) = length p -> n = length p -> hd origin3 p = last p origin3 ->
  nth_error p 1 = Some c -> S_ = corner_sign (convex_at a b c) (side_of a b q) (side_of b c q).
Proof.
  intros H1 Hi Hfull Hcl Hc. rewrite sign_end_general by assumption. assert (Cy := cyclic_closed Hcl). assert (L := seg_len).
  assert (Hb : nth_error p 0 = Some b).
  { destruct Hab as [_ Hb].
    assert (Ll : nth (length p - 1) p origin3 = last p origin3).
    { clear. induction p as [|x l IH]; [reflexivity|]. destruct l as [|y l]; [reflexivity|].
      change (last (x :: y :: l) origin3) with (last (y :: l) origin3). rewrite <- IH. cbn [length].
      replace (S (S (length l)) - 1)%nat with (S (S (length l) - 1)) by lia. reflexivity. }
    assert (Z := nth_error_nth p (S i) origin3 Hb). replace (S i) with (length p - 1)%nat in Z by lia. rewrite Ll, <- Hcl in Z.
    destruct p; [cbn in L; lia|]. cbn in *. congruence. }
  assert (Hbc : is_segment p 0 b c) by (now split).
  assert (Ei : Nat.eqb (S i) (num_segments (pad n p)) = true) by (apply Nat.eqb_eq; rewrite rows_segments; lia).
  assert (Ep : next cyc (pad n p) i = 0%nat) by (unfold next; now rewrite Ei, Cy).
  rewrite Ep, (proj2 (row_valid n p 0)) by (exists b, c; assumption).
  unfold sign_if_after, convex_after. rewrite Ep.
  assert (Eb : after (pad n p) i = 0%nat) by (unfold after; now rewrite Ei).
  rewrite Eb, (row_s2e n p _ b c Hbc), (row_s2e n p i a b Hab), turn_rows, (row_side n p q i a b Hab), (row_side n p q _ b c Hbc).
  reflexivity.
Qed.
End Sign.
