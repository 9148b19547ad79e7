(** The distance between two boxes. *)
From Coq Require Import Reals Lra Psatz List Lia.
From Verif Require Import Base GeomModel GeomSpec GeomBase GeomConvex GeomDistProofs GeomMinkProofs.
Import ListNotations.
Open Scope R_scope.

(** ** Rectangles *)
Lemma in_rectangle_convex x y l w h : convex (in_rectangle x y l w h).
Proof.
  intros p q z [u [v [Hu [Hv ->]]]] [u' [v' [Hu' [Hv' ->]]]] [t [Ht ->]].
  exists (u + t * (u' - u)), (v + t * (v' - v)). split; [nra|]. split; [nra|].
  unfold between. cbn [fst snd]. f_equal; ring.
Qed.
Definition region (b : obox) : point -> Prop := in_rectangle (bx b) (by_ b) (blength b) (bwidth b) (bheading b).
Definition corner_list (q : quad) : list point := [c0 q; c1 q; c2 q; c3 q].
Lemma box_corners_hull b : 0 < blength b -> 0 < bwidth b -> forall p, hull (corner_list (box_corners b)) p <-> region b p.
Proof.
  intros Hl Hw p. destruct b as [x y l w h]. cbn [blength bwidth] in *. unfold region. cbn [bx by_ blength bwidth bheading].
  split.
  - intros H. apply H; [apply in_rectangle_convex|]. intros q Hq. unfold corner_list, box_corners in Hq. cbn [c0 c1 c2 c3 In] in Hq.
    cbn [bx by_ blength bwidth bheading] in Hq.
    destruct Hq as [<-|[<-|[<-|[<-|[]]]]]; unfold padd, rotate; cbn [fst snd].
    + exists (l / 2), (w / 2). split; [lra|]. split; [lra|]. f_equal; field.
    + exists (- (l / 2)), (w / 2). split; [lra|]. split; [lra|]. f_equal; field.
    + exists (- (l / 2)), (- (w / 2)). split; [lra|]. split; [lra|]. f_equal; field.
    + exists (l / 2), (- (w / 2)). split; [lra|]. split; [lra|]. f_equal; field.
  - intros [u [v [Hu [Hv ->]]]] C HC HV.
    set (o := c2 (box_corners {| bx := x; by_ := y; blength := l; bwidth := w; bheading := h |})).
    set (a := (l * cos h, l * sin h)). set (d := (- w * sin h, w * cos h)).
    apply (in_para_hull o a d C HC).
    + replace (para o a d 0 0) with o; [apply HV; cbn; auto|]. unfold para. destruct o. cbn [fst snd]. f_equal; ring.
    + match type of HV with forall p, In p (corner_list ?q) -> _ => replace (para o a d 1 0) with (c3 q); [apply HV; cbn; auto|] end.
      unfold para, o, a, d, box_corners, padd, rotate. cbn [c2 c3 bx by_ blength bwidth bheading fst snd]. f_equal; field.
    + match type of HV with forall p, In p (corner_list ?q) -> _ => replace (para o a d 1 1) with (c0 q); [apply HV; cbn; auto|] end.
      unfold para, o, a, d, box_corners, padd, rotate. cbn [c2 c0 bx by_ blength bwidth bheading fst snd]. f_equal; field.
    + match type of HV with forall p, In p (corner_list ?q) -> _ => replace (para o a d 0 1) with (c1 q); [apply HV; cbn; auto|] end.
      unfold para, o, a, d, box_corners, padd, rotate. cbn [c2 c1 bx by_ blength bwidth bheading fst snd]. f_equal; field.
    + exists ((u + l / 2) / l), ((v + w / 2) / w). split; [|split].
      * split; [apply Rmult_le_pos; [lra|apply Rlt_le, Rinv_0_lt_compat; lra]|].
        apply Rmult_le_reg_r with l; [lra|]. replace ((u + l / 2) / l * l) with (u + l / 2) by (field; lra). lra.
      * split; [apply Rmult_le_pos; [lra|apply Rlt_le, Rinv_0_lt_compat; lra]|].
        apply Rmult_le_reg_r with w; [lra|]. replace ((v + w / 2) / w * w) with (v + w / 2) by (field; lra). lra.
      * unfold para, o, a, d, box_corners, padd, rotate. cbn [c2 bx by_ blength bwidth bheading fst snd]. f_equal; field; lra.
Qed.
Lemma cs1 h : cos h * cos h + sin h * sin h = 1.
Proof. assert (H := sin2_cos2 h). unfold Rsqr in H. lra. Qed.
Lemma box_corners_rectangle b : 0 < blength b -> 0 < bwidth b -> rectangle (box_corners b).
Proof.
  intros Hl Hw. destruct b as [x y l w h]. cbn [blength bwidth] in *.
  unfold rectangle, is_rectangle, box_corners, turn, padd, rotate. cbn [c0 c1 c2 c3 bx by_ blength bwidth bheading fst snd].
  split; [split; field|]. split; [field|].
  replace (_ - _) with ((cos h * cos h + sin h * sin h) * (l * w)) by field. rewrite cs1. nra.
Qed.
Lemma pneg_pneg p : pneg (pneg p) = p.
Proof. destruct p. unfold pneg. cbn [fst snd]. f_equal; ring. Qed.
Lemma neg_rectangle q : rectangle q -> rectangle (neg_quad q).
Proof.
  unfold rectangle, is_rectangle, neg_quad, turn, pneg. cbn [c0 c1 c2 c3 fst snd]. intros [[E1 E2] [O T]].
  split; [split; lra|]. split; [lra|]. lra.
Qed.
Lemma convex_neg C : convex C -> convex (fun p => C (pneg p)).
Proof.
  intros HC a b x Ha Hb [t [Ht ->]]. apply (HC (pneg a) (pneg b)); auto. exists t. split; [assumption|].
  unfold pneg, between. cbn [fst snd]. f_equal; ring.
Qed.
Lemma neg_hull q p : hull (corner_list (neg_quad q)) p <-> hull (corner_list q) (pneg p).
Proof.
  assert (D : forall r r', (forall z, In z (corner_list r) -> In (pneg z) (corner_list r')) ->
    forall z, hull (corner_list r) z -> hull (corner_list r') (pneg z)).
  { intros r r' Hrr z Hz C HC HV. apply (Hz (fun y => C (pneg y))); [now apply convex_neg|].
    intros y Hy. apply HV. now apply Hrr. }
  split.
  - apply D. intros z Hz. cbn in Hz. destruct Hz as [<-|[<-|[<-|[<-|[]]]]]; rewrite pneg_pneg; cbn; auto.
  - intros H. rewrite <- (pneg_pneg p). revert H. apply D.
    intros z Hz. cbn in Hz. destruct Hz as [<-|[<-|[<-|[<-|[]]]]]; cbn; auto.
Qed.

(** ** Two boxes *)
Section Pair.
Variables (factor : R) (a b : obox).
Hypothesis Hf : 0 <= factor < 1.
Hypothesis Hal : 0 < blength a. Hypothesis Haw : 0 < bwidth a.
Hypothesis Hbl : 0 < blength b. Hypothesis Hbw : 0 < bwidth b.
Notation ra := (shrinking_distance factor a).
Notation rb := (shrinking_distance factor b).
Notation A := (region (core factor a)).
Notation B := (region (core factor b)).
Notation M := (minkowski_sum (box_corners (core factor a)) (neg_quad (box_corners (core factor b)))).

Lemma core_pos c : 0 < blength c -> 0 < bwidth c -> 0 <= shrinking_distance factor c /\
  0 < blength (core factor c) /\ 0 < bwidth (core factor c).
Proof.
  intros H1 H2. unfold core, shrinking_distance. cbn [blength bwidth].
  assert (M1 := Rmin_l (blength c) (bwidth c)). assert (M2 := Rmin_r (blength c) (bwidth c)).
  assert (M0 : 0 < Rmin (blength c) (bwidth c)) by (now apply Rmin_pos).
  set (m := Rmin (blength c) (bwidth c)) in *. split; [nra|]. split; nra.
Qed.
Lemma mink_poly : convex_polygon M /\ proper_edges M /\ forall x, hull M x <-> exists p q, A p /\ B q /\ x = psub p q.
Proof.
  destruct (core_pos a Hal Haw) as [_ [A1 A2]]. destruct (core_pos b Hbl Hbw) as [_ [B1 B2]].
  destruct (minkowski_sum_correct (box_corners (core factor a)) (neg_quad (box_corners (core factor b)))) as [_ [H1 [H2 H3]]].
  - now apply box_corners_rectangle.
  - now apply neg_rectangle, box_corners_rectangle.
  - split; [exact H1|]. split; [exact H2|]. intros x. rewrite H3. split.
    + intros [p [q [Hp [Hq ->]]]]. exists p, (pneg q). split; [now apply box_corners_hull|].
      split; [apply box_corners_hull; try assumption; now apply neg_hull|].
      unfold psub, pneg. cbn [fst snd]. f_equal; ring.
    + intros [p [q [Hp [Hq ->]]]]. exists p, (pneg q). split; [now apply box_corners_hull|].
      split; [apply (proj2 (neg_hull _ _)); rewrite pneg_pneg; now apply box_corners_hull|].
      unfold psub, pneg. cbn [fst snd]. f_equal; ring.
Qed.
Lemma dist_origin p q : dist (0, 0) (psub p q) = dist p q.
Proof. unfold dist, psub. cbn [fst snd]. f_equal. ring. Qed.

(** Apart: the distance; in contact: minus the depth. *)
Lemma box_distance_cases : exists d, box_distance factor a b = Ok (d - ra - rb) /\
  ((0 < d /\ (exists p q, A p /\ B q /\ dist p q = d) /\ forall p q, A p -> B q -> d <= dist p q) \/
   (d <= 0 /\ (exists p, A p /\ B p) /\
    (forall x, dist (0, 0) x < - d -> exists p q, A p /\ B q /\ x = psub p q) /\
    (exists e : point, e <> (0, 0) /\ exists x, dist (0, 0) x = - d /\
       forall p q, A p -> B q -> 0 <= cross e (psub (psub p q) x)))).
Proof.
  destruct mink_poly as [Hc [He Hh]]. unfold box_distance.
  destruct (is_inside (0, 0) M) eqn:I.
  - apply (proj1 (is_inside_hull M Hc He _)) in I. destruct (inside_distance M Hc He (0, 0) I) as [d [E [Hd [Hb Hball]]]].
    rewrite E. exists (- d). split; [reflexivity|]. right. split; [lra|]. rewrite Ropp_involutive. split; [|split].
    + apply (proj1 (Hh _)) in I. destruct I as [p [q [Hp [Hq Z]]]]. exists p. split; [assumption|].
      unfold psub in Z. apply pair_equal_spec in Z. destruct Z as [Z1 Z2]. replace p with q; [assumption|].
      destruct p, q. cbn [fst snd] in *. f_equal; lra.
    + intros x Hx. apply (proj1 (Hh _)). now apply Hball.
    + destruct Hb as [[x [[i Hx] Hxd]] _]. exists (psub (vertex M (S i)) (vertex M i)).
      split; [rewrite psub_zero; intros C; symmetry in C; exact (He i C)|]. exists x. split; [assumption|].
      intros p q Hp Hq. assert (Hz : hull M (psub p q)) by (apply Hh; exists p, q; auto).
      apply (proj1 (hull_inside M Hc He _)) in Hz. assert (Z := Hz i). destruct Hx as [t [_ ->]].
      replace (cross (psub (vertex M (S i)) (vertex M i)) (psub (psub p q) (between (vertex M i) (vertex M (S i)) t)))
        with (cross (psub (vertex M (S i)) (vertex M i)) (psub (psub p q) (vertex M i))); [exact Z|].
      unfold cross, psub, between. cbn [fst snd]. ring.
  - assert (O : ~ hull M (0, 0)) by (intros C; apply (proj2 (is_inside_hull M Hc He _)) in C; congruence).
    destruct (outside_distance M Hc He (0, 0) O) as [d [E [Hd [[x [Hx Hxd]] Hmin]]]].
    rewrite E. exists d. split; [reflexivity|]. left. split; [assumption|]. split.
    + apply (proj1 (Hh _)) in Hx. destruct Hx as [p [q [Hp [Hq ->]]]]. exists p, q. split; [assumption|]. split; [assumption|].
      now rewrite <- dist_origin.
    + intros p q Hp Hq. rewrite <- dist_origin. apply Hmin. apply Hh. exists p, q. auto.
Qed.

(** ** Separation *)
Lemma nearest_separates (C : point -> Prop) x d : convex C -> C x -> dist (0, 0) x = d -> 0 < d ->
  (forall z, C z -> d <= dist (0, 0) z) -> forall z, C z -> d * d <= dot x z.
Proof.
  intros HC Hx Hxd Hd Hmin z Hz.
  assert (Exd : dot x x = d * d).
  { rewrite <- Hxd, dist_sqr. unfold dot. cbn [fst snd]. ring. }
  destruct (Rle_dec (d * d) (dot x z)) as [L|L]; [assumption|]. exfalso.
  set (c := d * d - dot x z) in *. assert (Hcp : 0 < c) by (unfold c; lra).
  set (K := dot (psub z x) (psub z x)).
  assert (HK : 0 < K).
  { assert (K0 : 0 <= K) by (unfold K, dot; nra).
    destruct (Req_EM_T K 0) as [Z|]; [|lra]. exfalso.
    assert (Z1 : dist z x * dist z x = 0) by (rewrite dist_sqr; exact Z).
    apply Rmult_integral in Z1. assert (z = x) as -> by (apply dist_zero; tauto).
    unfold c in Hcp. rewrite Exd in Hcp. lra. }
  assert (T : exists t, 0 < t <= 1 /\ t * K <= c).
  { destruct (Rle_dec K c) as [H|H]; [exists 1; lra|]. exists (c / K). split.
    - split; [apply Rmult_lt_0_compat; [assumption|now apply Rinv_0_lt_compat]|].
      apply Rmult_le_reg_r with K; [assumption|]. replace (c / K * K) with c by (field; lra). lra.
    - replace (c / K * K) with c by (field; lra). lra. }
  destruct T as [t [Ht HtK]].
  assert (Hy : C (between x z t)) by (apply (HC x z); auto; exists t; split; [lra|reflexivity]).
  assert (Hd2 := Hmin _ Hy). assert (D := dist_sqr (0, 0) (between x z t)).
  assert (Z : dist (0, 0) (between x z t) * dist (0, 0) (between x z t) = d * d - 2 * t * c + t * t * K).
  { rewrite D. unfold c, K. rewrite <- Exd. unfold dot, psub, between. cbn [fst snd]. ring. }
  assert (P := dist_nonneg (0, 0) (between x z t)).
  assert (d * d <= dist (0, 0) (between x z t) * dist (0, 0) (between x z t)) by nra.
  assert (t * (t * K) <= t * c) by (apply Rmult_le_compat_l; lra). assert (0 < t * c) by (apply Rmult_lt_0_compat; lra).
  rewrite Z in *. nra.
Qed.
Lemma AB_convex : convex (fun x => exists p q, A p /\ B q /\ x = psub p q).
Proof.
  intros x y z [p [q [Hp [Hq ->]]]] [p' [q' [Hp' [Hq' ->]]]] [t [Ht ->]].
  exists (between p p' t), (between q q' t).
  split; [apply (in_rectangle_convex _ _ _ _ _ p p'); auto; now exists t|].
  split; [apply (in_rectangle_convex _ _ _ _ _ q q'); auto; now exists t|].
  unfold between, psub. cbn [fst snd]. f_equal; ring.
Qed.
Lemma separated d : box_distance factor a b = Ok d -> 0 <= d ->
  exists u : point, dot u u = 1 /\ forall p q, A p -> B q -> ra + rb + d <= dot u (psub p q).
Proof.
  intros E Hd. destruct box_distance_cases as [s [E' Hs]]. rewrite E in E'. apply Ok_inj in E'. subst d.
  destruct (core_pos a Hal Haw) as [Ra _]. destruct (core_pos b Hbl Hbw) as [Rb _].
  destruct Hs as [[Hs [[p [q [Hp [Hq Hpq]]]] Hmin]]|[Hs [_ [_ [e [He [x [Hx Hsep]]]]]]]].
  - exists (fst (psub p q) / s, snd (psub p q) / s).
    assert (N : dot (psub p q) (psub p q) = s * s).
    { rewrite <- Hpq, dist_sqr. unfold dot, psub. cbn [fst snd]. ring. }
    split.
    + transitivity (dot (psub p q) (psub p q) / (s * s)); [unfold dot; cbn [fst snd]; field; lra|]. rewrite N. field. lra.
    + intros p' q' Hp' Hq'.
      assert (H := nearest_separates (fun x => exists p q, A p /\ B q /\ x = psub p q) (psub p q) s AB_convex).
      assert (s * s <= dot (psub p q) (psub p' q')).
      { apply H; [exists p, q; auto|now rewrite dist_origin|assumption| |exists p', q'; auto].
        intros z [p1 [q1 [H1 [H2 ->]]]]. rewrite dist_origin. now apply Hmin. }
      replace (ra + rb + (s - ra - rb)) with s by ring.
      apply Rmult_le_reg_l with s; [assumption|].
      replace (s * dot (fst (psub p q) / s, snd (psub p q) / s) (psub p' q')) with (dot (psub p q) (psub p' q'))
        by (unfold dot; cbn [fst snd]; field; lra). assumption.
  - assert (s = 0 /\ ra = 0 /\ rb = 0) as [Z1 [Z2 Z3]] by (repeat split; lra).
    assert (x = (0, 0)) as ->. { symmetry. apply dist_zero. rewrite Hx. lra. }
    assert (P := norm_pos e He). assert (S := norm_sqr e).
    exists (- snd e / norm e, fst e / norm e). split.
    + transitivity ((fst e * fst e + snd e * snd e) / (norm e * norm e)); [unfold dot; cbn [fst snd]; field; lra|].
      rewrite <- S. field. lra.
    + intros p q Hp Hq. replace (ra + rb + (s - ra - rb)) with 0 by lra. assert (H := Hsep p q Hp Hq).
      replace (dot (- snd e / norm e, fst e / norm e) (psub p q)) with (cross e (psub (psub p q) (0, 0)) / norm e).
      * apply Rmult_le_pos; [assumption|]. apply Rlt_le, Rinv_0_lt_compat, P.
      * unfold dot, cross, psub. cbn [fst snd]. field. lra.
Qed.

(** ** Rounded boxes *)
Definition rounded (c : obox) : point -> Prop :=
  in_rounded_rectangle (shrinking_distance factor c) (bx c) (by_ c) (blength c) (bwidth c) (bheading c).
Lemma rounded_iff c p : rounded c p <-> exists z, region (core factor c) z /\ dist p z <= shrinking_distance factor c.
Proof. reflexivity. Qed.
Lemma dot_dist u p q : dot u u = 1 -> dot u (psub p q) <= dist p q.
Proof.
  intros Hu. assert (H := cauchy_schwarz u (psub p q)). rewrite <- dist_norm in H.
  replace (norm u) with 1 in H; [lra|]. symmetry. apply norm_unique; [lra|]. unfold dot in Hu. lra.
Qed.
Lemma dot_psub u p q : dot u (psub p q) = dot u p - dot u q.
Proof. unfold dot, psub. cbn [fst snd]. ring. Qed.

Lemma apart_no_overlap d p : box_distance factor a b = Ok d -> 0 <= d ->
  interior (rounded a) p -> interior (rounded b) p -> False.
Proof.
  intros E Hd [e [He Ha]] [e' [He' Hb]]. destruct (separated d E Hd) as [u [Hu Hsep]].
  set (p' := (fst p - e / 2 * fst u, snd p - e / 2 * snd u)).
  assert (Hp' : dist p p' = e / 2).
  { rewrite dist_norm. apply norm_unique; [lra|]. unfold psub, p'. cbn [fst snd].
    transitivity (e / 2 * (e / 2) * dot u u); [rewrite Hu; ring|unfold dot; ring]. }
  assert (H1 : rounded a p') by (apply Ha; lra).
  assert (H2 : rounded b p).
  { apply Hb. rewrite (proj2 (dist_zero p p) eq_refl). assumption. }
  destruct H1 as [x [Hx Hxd]]. destruct H2 as [y [Hy Hyd]].
  assert (S := Hsep x y Hx Hy). rewrite dot_psub in S.
  assert (D1 := dot_dist u x p' Hu). rewrite dot_psub, dist_sym in D1.
  assert (D2 := dot_dist u p y Hu). rewrite dot_psub in D2.
  assert (Ep : dot u p' = dot u p - e / 2).
  { unfold p'. transitivity (dot u p - e / 2 * dot u u); [unfold dot; cbn [fst snd]; ring|rewrite Hu; ring]. }
  lra.
Qed.

(** Points strictly inside a rectangle. *)
Definition strict (c : obox) (p : point) : Prop :=
  exists u v, - (blength c / 2) < u < blength c / 2 /\ - (bwidth c / 2) < v < bwidth c / 2 /\
    p = (bx c + u * cos (bheading c) - v * sin (bheading c), by_ c + u * sin (bheading c) + v * cos (bheading c)).
Lemma strict_region c p : strict c p -> region c p.
Proof. intros [u [v [Hu [Hv ->]]]]. exists u, v. split; [lra|]. split; [lra|reflexivity]. Qed.
Lemma strict_interior c p : strict c p -> interior (region c) p.
Proof.
  intros [u [v [Hu [Hv ->]]]]. set (h := bheading c) in *.
  set (e := Rmin (Rmin (u + blength c / 2) (blength c / 2 - u)) (Rmin (v + bwidth c / 2) (bwidth c / 2 - v))).
  exists e. split; [unfold e; repeat apply Rmin_pos; lra|].
  intros x Hx. unfold region, in_rectangle. fold h.
  assert (M1 := Rmin_l (Rmin (u + blength c / 2) (blength c / 2 - u)) (Rmin (v + bwidth c / 2) (bwidth c / 2 - v))).
  assert (M2 := Rmin_r (Rmin (u + blength c / 2) (blength c / 2 - u)) (Rmin (v + bwidth c / 2) (bwidth c / 2 - v))).
  fold e in M1, M2.
  assert (M3 := Rmin_l (u + blength c / 2) (blength c / 2 - u)). assert (M4 := Rmin_r (u + blength c / 2) (blength c / 2 - u)).
  assert (M5 := Rmin_l (v + bwidth c / 2) (bwidth c / 2 - v)). assert (M6 := Rmin_r (v + bwidth c / 2) (bwidth c / 2 - v)).
  set (p := (bx c + u * cos h - v * sin h, by_ c + u * sin h + v * cos h)) in *.
  assert (C := cs1 h).
  assert (U1 : dot (cos h, sin h) (cos h, sin h) = 1) by (unfold dot; cbn [fst snd]; lra).
  assert (U2 : dot (- sin h, cos h) (- sin h, cos h) = 1) by (unfold dot; cbn [fst snd]; lra).
  assert (D1 := dot_dist _ p x U1). assert (D2 := dot_dist _ x p U1).
  assert (D3 := dot_dist _ p x U2). assert (D4 := dot_dist _ x p U2). rewrite (dist_sym x p) in D2, D4.
  set (du := dot (cos h, sin h) (psub x p)) in *. set (dv := dot (- sin h, cos h) (psub x p)) in *.
  assert (D1' : - du <= dist p x).
  { unfold du. replace (- dot (cos h, sin h) (psub x p)) with (dot (cos h, sin h) (psub p x)) by (unfold dot, psub; cbn [fst snd]; ring). exact D1. }
  assert (D3' : - dv <= dist p x).
  { unfold dv. replace (- dot (- sin h, cos h) (psub x p)) with (dot (- sin h, cos h) (psub p x)) by (unfold dot, psub; cbn [fst snd]; ring). exact D3. }
  exists (u + du), (v + dv). split; [lra|]. split; [lra|].
  assert (X1 : fst x - fst p = du * cos h - dv * sin h).
  { unfold du, dv, dot, psub. cbn [fst snd].
    transitivity ((fst x - fst p) * (cos h * cos h + sin h * sin h)); [rewrite C; ring|ring]. }
  assert (X2 : snd x - snd p = du * sin h + dv * cos h).
  { unfold du, dv, dot, psub. cbn [fst snd].
    transitivity ((snd x - snd p) * (cos h * cos h + sin h * sin h)); [rewrite C; ring|ring]. }
  unfold p in X1, X2. cbn [fst snd] in X1, X2. destruct x as [x1 x2]. cbn [fst snd] in *. f_equal; lra.
Qed.
Lemma strict_between c p q t : region c p -> strict c q -> 0 < t <= 1 -> strict c (between p q t).
Proof.
  intros [u [v [Hu [Hv ->]]]] [u' [v' [Hu' [Hv' ->]]]] Ht.
  exists (u + t * (u' - u)), (v + t * (v' - v)). split; [nra|]. split; [nra|].
  unfold between. cbn [fst snd]. f_equal; ring.
Qed.
Lemma strict_centre c : 0 < blength c -> 0 < bwidth c -> strict c (bx c, by_ c).
Proof. intros Hl Hw. exists 0, 0. split; [lra|]. split; [lra|]. f_equal; ring. Qed.
Lemma rounded_interior c z p : strict (core factor c) z -> 0 <= shrinking_distance factor c ->
  (p = z \/ dist p z < shrinking_distance factor c) -> interior (rounded c) p.
Proof.
  intros Hz Hr [->|H].
  - destruct (strict_interior _ _ Hz) as [e [He Hi]]. exists e. split; [assumption|]. intros x Hx.
    exists x. split; [now apply Hi|]. rewrite (proj2 (dist_zero x x) eq_refl). assumption.
  - exists (shrinking_distance factor c - dist p z). split; [lra|]. intros x Hx. exists z.
    split; [exact (strict_region _ _ Hz)|]. assert (T := dist_triangle x p z). rewrite dist_sym in Hx. lra.
Qed.

Lemma close_overlap z w : strict (core factor a) z -> strict (core factor b) w -> (z = w \/ dist z w < ra + rb) ->
  exists p, interior (rounded a) p /\ interior (rounded b) p.
Proof.
  intros Hz Hw Hzw. destruct (core_pos a Hal Haw) as [Ra _]. destruct (core_pos b Hbl Hbw) as [Rb _].
  destruct Hzw as [<-|Hd].
  - exists z. split; [apply (rounded_interior a z)|apply (rounded_interior b z)]; auto.
  - assert (D0 := dist_nonneg z w). set (s := ra + rb) in *. assert (Hs : 0 < s) by lra.
    exists (between z w (ra / s)).
    assert (Q : 0 <= ra / s <= 1).
    { split; [apply Rmult_le_pos; [assumption|apply Rlt_le, Rinv_0_lt_compat, Hs]|].
      apply Rmult_le_reg_r with s; [assumption|]. replace (ra / s * s) with ra by (field; lra). unfold s. lra. }
    split.
    + apply (rounded_interior a z); auto. destruct (Req_EM_T ra 0) as [Z|Z].
      * left. rewrite Z. replace (0 / s) with 0 by (field; lra). apply between_0.
      * right. rewrite dist_sym, dist_between_l by lra.
        apply Rmult_lt_reg_l with s; [assumption|]. replace (s * (ra / s * dist z w)) with (ra * dist z w) by (field; lra).
        rewrite (Rmult_comm s ra). apply Rmult_lt_compat_l; lra.
    + apply (rounded_interior b w); auto. destruct (Req_EM_T rb 0) as [Z|Z].
      * left. replace (ra / s) with 1; [apply between_1|]. unfold s. rewrite Z. field. unfold s in Hs. lra.
      * right. rewrite dist_between_r by lra.
        apply Rmult_lt_reg_l with s; [assumption|].
        replace (s * ((1 - ra / s) * dist z w)) with (rb * dist z w) by (unfold s; field; unfold s in Hs; lra).
        rewrite (Rmult_comm s rb). apply Rmult_lt_compat_l; lra.
Qed.
Lemma near_overlap p q : A p -> B q -> dist p q < ra + rb ->
  exists x, interior (rounded a) x /\ interior (rounded b) x.
Proof.
  intros Hp Hq Hd. destruct (core_pos a Hal Haw) as [_ [A1 A2]]. destruct (core_pos b Hbl Hbw) as [_ [B1 B2]].
  assert (Ca := strict_centre _ A1 A2). assert (Cb := strict_centre _ B1 B2).
  set (p0 := (bx (core factor a), by_ (core factor a))) in *. set (q0 := (bx (core factor b), by_ (core factor b))) in *.
  set (K := dist p p0 + dist q0 q). assert (HK : 0 <= K).
  { unfold K. assert (H1 := dist_nonneg p p0). assert (H2 := dist_nonneg q0 q). lra. }
  set (g := ra + rb - dist p q). assert (Hg : 0 < g) by (unfold g; lra).
  assert (T : exists t, 0 < t <= 1 /\ t * K < g).
  { exists (Rmin 1 (g / (2 * (K + 1)))). assert (P : 0 < g / (2 * (K + 1))).
    { apply Rmult_lt_0_compat; [assumption|]. apply Rinv_0_lt_compat. lra. }
    split; [split; [apply Rmin_pos; lra|apply Rmin_l]|].
    assert (M := Rmin_r 1 (g / (2 * (K + 1)))).
    apply Rle_lt_trans with (g / (2 * (K + 1)) * K); [apply Rmult_le_compat_r; assumption|].
    apply Rmult_lt_reg_r with (2 * (K + 1)); [lra|].
    replace (g / (2 * (K + 1)) * K * (2 * (K + 1))) with (g * K) by (field; lra). nra. }
  destruct T as [t [Ht HtK]].
  apply (close_overlap (between p p0 t) (between q q0 t)).
  - now apply strict_between.
  - now apply strict_between.
  - right.
    assert (T1 := dist_triangle (between p p0 t) p (between q q0 t)).
    assert (T2 := dist_triangle p q (between q q0 t)).
    rewrite (dist_sym (between p p0 t) p), dist_between_l in T1 by lra.
    rewrite dist_between_l in T2 by lra. rewrite (dist_sym q q0) in T2. unfold K in HtK. unfold g in HtK. lra.
Qed.
Lemma negative_overlap d : box_distance factor a b = Ok d -> d < 0 ->
  exists x, interior (rounded a) x /\ interior (rounded b) x.
Proof.
  intros E Hd. destruct box_distance_cases as [s [E' Hs]]. rewrite E in E'. apply Ok_inj in E'. subst d.
  destruct (core_pos a Hal Haw) as [Ra [A1 A2]]. destruct (core_pos b Hbl Hbw) as [Rb [B1 B2]].
  destruct Hs as [[Hs [[p [q [Hp [Hq Hpq]]]] Hmin]]|[Hs [[p [Hpa Hpb]] [Hball _]]]].
  - apply (near_overlap p q); auto. lra.
  - destruct (Rlt_dec 0 (ra + rb)) as [L|L].
    + apply (near_overlap p p); auto. rewrite (proj2 (dist_zero p p) eq_refl). assumption.
    + assert (Hs' : 0 < - s) by lra.
      assert (Ca := strict_centre _ A1 A2). assert (Cb := strict_centre _ B1 B2).
      set (p0 := (bx (core factor a), by_ (core factor a))) in *. set (q0 := (bx (core factor b), by_ (core factor b))) in *.
      set (K := dist p0 q0). assert (HK : 0 <= K) by apply dist_nonneg.
      set (e := - s / (2 * (K + 1))). assert (He : 0 < e) by (apply Rmult_lt_0_compat; [assumption|apply Rinv_0_lt_compat; lra]).
      destruct (Hball (- e * (fst p0 - fst q0), - e * (snd p0 - snd q0))) as [x [y [Hx [Hy Exy]]]].
      { replace (dist (0, 0) (- e * (fst p0 - fst q0), - e * (snd p0 - snd q0))) with (e * K).
        - unfold e. apply Rmult_lt_reg_r with (2 * (K + 1)); [lra|].
          replace (- s / (2 * (K + 1)) * K * (2 * (K + 1))) with (- s * K) by (field; lra). nra.
        - unfold K. rewrite (dist_norm (0, 0)). symmetry. apply norm_unique; [apply Rmult_le_pos; [lra|apply dist_nonneg]|].
          replace (e * dist p0 q0 * (e * dist p0 q0)) with (e * e * (dist p0 q0 * dist p0 q0)) by ring.
          rewrite dist_sqr. unfold psub. cbn [fst snd]. ring. }
      apply (close_overlap (between x p0 (e / (1 + e))) (between y q0 (e / (1 + e)))).
      * apply strict_between; auto. split; [apply Rmult_lt_0_compat; [assumption|apply Rinv_0_lt_compat; lra]|].
        apply Rmult_le_reg_r with (1 + e); [lra|]. replace (e / (1 + e) * (1 + e)) with e by (field; lra). lra.
      * apply strict_between; auto. split; [apply Rmult_lt_0_compat; [assumption|apply Rinv_0_lt_compat; lra]|].
        apply Rmult_le_reg_r with (1 + e); [lra|]. replace (e / (1 + e) * (1 + e)) with e by (field; lra). lra.
      * left. unfold psub in Exy. apply pair_equal_spec in Exy. destruct Exy as [X1 X2].
        unfold between. f_equal.
        -- replace (fst x) with (fst y - e * (fst p0 - fst q0)) by lra. field. lra.
        -- replace (snd x) with (snd y - e * (snd p0 - snd q0)) by lra. field. lra.
Qed.
Lemma box_distance_negative : exists d, box_distance factor a b = Ok d /\
  (d < 0 <-> exists p, interior (rounded a) p /\ interior (rounded b) p).
Proof.
  destruct box_distance_cases as [s [E _]]. exists (s - ra - rb). split; [exact E|]. split.
  - apply negative_overlap, E.
  - intros [p [H1 H2]]. destruct (Rlt_dec (s - ra - rb) 0) as [L|L]; [assumption|]. exfalso.
    apply (apart_no_overlap (s - ra - rb) p E); auto. lra.
Qed.
(** Not overlapping: the least distance between points of the rounded boxes. *)
Lemma box_distance_positive d : box_distance factor a b = Ok d -> 0 <= d ->
  (exists p q, rounded a p /\ rounded b q /\ dist p q = d) /\ forall p q, rounded a p -> rounded b q -> d <= dist p q.
Proof.
  intros E Hd. destruct box_distance_cases as [s [E' Hs]]. rewrite E in E'. apply Ok_inj in E'. subst d.
  destruct (core_pos a Hal Haw) as [Ra _]. destruct (core_pos b Hbl Hbw) as [Rb _].
  destruct Hs as [[Hs [[p [q [Hp [Hq Hpq]]]] Hmin]]|[Hs [[p [Hpa Hpb]] _]]].
  - split.
    + exists (between p q (ra / s)), (between q p (rb / s)).
      assert (Q1 : 0 <= ra / s) by (apply Rmult_le_pos; [assumption|apply Rlt_le, Rinv_0_lt_compat, Hs]).
      assert (Q2 : 0 <= rb / s) by (apply Rmult_le_pos; [assumption|apply Rlt_le, Rinv_0_lt_compat, Hs]).
      split; [|split].
      * exists p. split; [assumption|]. rewrite dist_sym, dist_between_l, Hpq by assumption.
        right. field. lra.
      * exists q. split; [assumption|]. rewrite dist_sym, dist_between_l, dist_sym, Hpq by assumption.
        right. field. lra.
      * rewrite dist_norm. apply norm_unique; [lra|].
        transitivity ((1 - ra / s - rb / s) * (1 - ra / s - rb / s) * (dist p q * dist p q)).
        -- rewrite Hpq. field. lra.
        -- rewrite dist_sqr. unfold psub, between. cbn [fst snd]. ring.
    + intros x y [z [Hz Hzd]] [w [Hw Hwd]]. assert (H := Hmin z w Hz Hw).
      assert (T1 := dist_triangle z x w). assert (T2 := dist_triangle x y w). rewrite (dist_sym z x) in T1. lra.
  - assert (s = 0 /\ ra = 0 /\ rb = 0) as [Z1 [Z2 Z3]] by (repeat split; lra). split.
    + exists p, p. assert (Z := proj2 (dist_zero p p) eq_refl). split; [|split].
      * exists p. split; [assumption|lra].
      * exists p. split; [assumption|lra].
      * lra.
    + intros x y _ _. assert (P := dist_nonneg x y). lra.
Qed.
End Pair.

(** A box and itself. *)
Lemma self_distance factor a : 0 <= factor < 1 -> 0 < blength a -> 0 < bwidth a ->
  exists d, box_distance factor a a = Ok d /\ - bwidth a <= d < 0.
Proof.
  intros Hf Hl Hw. destruct (box_distance_cases factor a a Hf Hl Hw Hl Hw) as [s [E Hs]].
  exists (s - shrinking_distance factor a - shrinking_distance factor a). split; [exact E|].
  destruct (core_pos factor Hf a Hl Hw) as [Ra [A1 A2]].
  assert (Hc := strict_centre _ A1 A2).
  destruct Hs as [[Hs [_ Hmin]]|[Hs [_ [Hball [e [He [x [Hx Hsep]]]]]]]].
  { exfalso. assert (Z := Hmin _ _ (strict_region _ _ Hc) (strict_region _ _ Hc)).
    rewrite (proj2 (dist_zero _ _) eq_refl) in Z. lra. }
  split.
  - assert (H : - s <= bwidth (core factor a)); [|unfold core in H; cbn [bwidth] in H; lra].
    apply Rnot_lt_le. intros C. set (h := bheading a).
    set (g := bwidth (core factor a)) in *. set (m := (- s + g) / 2).
    destruct (Hball (- m * sin h, m * cos h)) as [p [q [Hp [Hq Epq]]]].
    { replace (dist (0, 0) (- m * sin h, m * cos h)) with m; [unfold m; lra|].
      rewrite dist_norm. symmetry. apply norm_unique; [unfold m; lra|]. unfold psub. cbn [fst snd].
      transitivity (m * m * (cos h * cos h + sin h * sin h)); [rewrite cs1; ring|ring]. }
    destruct Hp as [u [v [_ [Hv ->]]]]. destruct Hq as [u' [v' [_ [Hv' ->]]]].
    change (bheading (core factor a)) with h in Epq. fold g in Hv, Hv'.
    unfold psub in Epq. apply pair_equal_spec in Epq. destruct Epq as [E1 E2]. cbn [fst snd] in E1, E2.
    assert (m = v - v').
    { assert (C1 := cs1 h).
      transitivity (m * (cos h * cos h + sin h * sin h)); [rewrite C1; ring|].
      assert (X := f_equal (fun t => t * - sin h) E1). assert (Y := f_equal (fun t => t * cos h) E2). cbv beta in X, Y.
      assert (Z : m * (cos h * cos h + sin h * sin h) = (v - v') * (cos h * cos h + sin h * sin h)) by lra.
      rewrite Z, C1. ring. }
    unfold m in *. lra.
  - destruct (Rlt_dec (s - shrinking_distance factor a - shrinking_distance factor a) 0) as [L|L]; [assumption|]. exfalso.
    apply (apart_no_overlap factor a a Hf Hl Hw Hl Hw (s - shrinking_distance factor a - shrinking_distance factor a)
             (bx (core factor a), by_ (core factor a)) E); [lra| |];
      apply (rounded_interior factor a (bx (core factor a), by_ (core factor a))); auto.
Qed.
