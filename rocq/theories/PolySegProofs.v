(** The intersection of two segments. *)
From Coq Require Import Reals Lra Psatz.
From Verif Require Import Base GeomModel GeomBase PolyModel PolySpec.
Open Scope R_scope.

Lemma reqb_iff a b : reqb a b = true <-> a = b.
Proof. unfold reqb. destruct (Req_EM_T a b); split; intros; auto; discriminate. Qed.
Lemma reqb_false a b : reqb a b = false <-> a <> b.
Proof. unfold reqb. destruct (Req_EM_T a b); split; intros; auto; try discriminate. now elim H. Qed.
Lemma peqb_iff a b : peqb a b = true <-> a = b.
Proof.
  unfold peqb. destruct a as [a1 a2], b as [b1 b2]; cbn [fst snd].
  destruct (Req_EM_T a1 b1), (Req_EM_T a2 b2); split; intros E; auto; try discriminate; subst; auto; now inversion E.
Qed.
Lemma peqb_false a b : peqb a b = false <-> a <> b.
Proof. rewrite <- peqb_iff. destruct (peqb a b); split; intros; auto; try discriminate; now elim H. Qed.
Lemma pt_eq (a b : pt) : fst a = fst b -> snd a = snd b -> a = b.
Proof. destruct a, b; cbn. now intros -> ->. Qed.

Lemma exact_cross v0 v1 v2 v3 : cross_maybe_exact v0 v1 v2 v3 = cross4 v0 v1 v2 v3.
Proof.
  unfold cross_maybe_exact.
  destruct (peqb v0 v1 || peqb v2 v3) eqn:E.
  - apply orb_true_iff in E as [E|E]; apply peqb_iff in E; subst; unfold cross4, cross, psub; cbn [fst snd]; ring.
  - destruct (rltb _ _); auto. unfold cross4, cross, psub; cbn [fst snd]; ring.
Qed.

(** Points on a line. *)
Lemma nonzero_square (d1 d2 : R) : ~ (d1 = 0 /\ d2 = 0) -> 0 < d1 * d1 + d2 * d2.
Proof.
  intros N. destruct (Req_dec d1 0) as [A|A].
  - assert (d2 <> 0) by tauto. subst. assert (0 < d2 * d2) by (apply Rsqr_pos_lt; auto). lra.
  - assert (0 < d1 * d1) by (apply Rsqr_pos_lt; auto). assert (0 <= d2 * d2) by apply Rle_0_sqr. lra.
Qed.
Lemma on_line (a b z : pt) : a <> b -> turn a b z = 0 ->
  exists t, fst z = fst a + t * (fst b - fst a) /\ snd z = snd a + t * (snd b - snd a).
Proof.
  intros N T. unfold turn in T. destruct a as [a1 a2], b as [b1 b2], z as [z1 z2]; cbn [fst snd] in *.
  assert (D : 0 < (b1 - a1) * (b1 - a1) + (b2 - a2) * (b2 - a2)).
  { apply nonzero_square. intros [A B]. apply N. f_equal; lra. }
  set (d1 := b1 - a1) in *. set (d2 := b2 - a2) in *.
  exists ((d1 * (z1 - a1) + d2 * (z2 - a2)) / (d1 * d1 + d2 * d2)).
  split; apply (Rmult_eq_reg_r (d1 * d1 + d2 * d2)); try lra; field_simplify; try lra.
  - assert (d1 * d2 * (z2 - a2) = d2 * d2 * (z1 - a1)) by (rewrite <- (Rplus_0_r (d2 * d2 * (z1 - a1))), <- (Rmult_0_r d2), <- T; ring). lra.
  - assert (d1 * d2 * (z1 - a1) = d1 * d1 * (z2 - a2)).
    { transitivity (d1 * d1 * (z2 - a2) - d1 * (d1 * (z2 - a2) - d2 * (z1 - a1))); [ring | rewrite T; ring]. }
    lra.
Qed.
Lemma between_box a b z : between a b z ->
  Rmin (fst a) (fst b) <= fst z <= Rmax (fst a) (fst b) /\ Rmin (snd a) (snd b) <= snd z <= Rmax (snd a) (snd b).
Proof.
  intros (t & T & -> & ->). unfold Rmin, Rmax.
  destruct (Rle_dec (fst a) (fst b)), (Rle_dec (snd a) (snd b)); repeat split; nra.
Qed.
Lemma colinear_point_some a b z x : colinear_point a b z = Some x <->
  x = z /\ Rmin (fst a) (fst b) <= fst z <= Rmax (fst a) (fst b) /\ Rmin (snd a) (snd b) <= snd z <= Rmax (snd a) (snd b).
Proof.
  unfold colinear_point.
  destruct (rleb (Rmin (fst a) (fst b)) (fst z)) eqn:A, (rleb (fst z) (Rmax (fst a) (fst b))) eqn:B,
    (rleb (Rmin (snd a) (snd b)) (snd z)) eqn:C, (rleb (snd z) (Rmax (snd a) (snd b))) eqn:D; cbn [andb];
  repeat match goal with
         | H : rleb _ _ = true |- _ => apply rleb_iff in H
         | H : rleb ?u ?v = false |- _ => assert (~ u <= v) by (intros HH; apply rleb_iff in HH; congruence); clear H
         end; split; intros E; try discriminate; try (exfalso; tauto).
  - inversion E; subst. tauto.
  - destruct E as [-> _]. auto.
Qed.
Lemma colinear_point_none a b z : colinear_point a b z = None -> ~ between a b z.
Proof.
  intros E B. apply between_box in B.
  assert (X : colinear_point a b z = Some z) by (apply colinear_point_some; tauto). congruence.
Qed.
Lemma line_box a b z : a <> b -> turn a b z = 0 ->
  Rmin (fst a) (fst b) <= fst z <= Rmax (fst a) (fst b) -> Rmin (snd a) (snd b) <= snd z <= Rmax (snd a) (snd b) ->
  between a b z.
Proof.
  intros N T A B. destruct (on_line a b z N T) as (t & E1 & E2). exists t. repeat split; auto.
  - destruct a as [a1 a2], b as [b1 b2]; cbn [fst snd] in *.
    destruct (Rle_dec 0 t) as [|X]; auto. exfalso. apply N.
    unfold Rmin, Rmax in *. destruct (Rle_dec a1 b1), (Rle_dec a2 b2); f_equal; nra.
  - destruct a as [a1 a2], b as [b1 b2]; cbn [fst snd] in *.
    destruct (Rle_dec t 1) as [|X]; auto. exfalso. apply N.
    unfold Rmin, Rmax in *. destruct (Rle_dec a1 b1), (Rle_dec a2 b2); f_equal; nra.
Qed.
Lemma between_ends a b : between a b a /\ between a b b.
Proof. split; [exists 0 | exists 1]; repeat split; try lra; ring. Qed.

Definition det_of (p0 p1 q0 q1 : pt) : R := cross4 p0 p1 q1 q0.
Lemma det_turn p0 p1 q0 q1 : det_of p0 p1 q0 q1 = turn p0 p1 q0 - turn p0 p1 q1.
Proof. unfold det_of, cross4, cross, psub, turn; cbn [fst snd]; ring. Qed.
Lemma parallel_turn (p0 p1 q0 q1 : pt) : p0 <> p1 -> turn p0 p1 q0 = 0 -> turn p0 p1 q1 = 0 -> turn q0 q1 p0 = 0 /\ turn q0 q1 p1 = 0.
Proof.
  intros N A B. destruct (on_line p0 p1 q0 N A) as (a & A1 & A2). destruct (on_line p0 p1 q1 N B) as (b & B1 & B2).
  unfold turn. rewrite A1, A2, B1, B2. split; ring.
Qed.

(** The tests of the code, without the tolerances. *)
Definition crossing (p0 p1 q0 q1 : pt) : Prop :=
  let det := det_of p0 p1 q0 q1 in
  let t1 := cross4 p0 q0 q1 q0 in
  let t2 := cross4 p0 p1 p0 q0 in
  (0 < det /\ 0 <= t1 <= det /\ 0 <= t2 <= det) \/ (det < 0 /\ det <= t1 <= 0 /\ det <= t2 <= 0).
Lemma rltb_cases u v : rltb u v = true /\ u < v \/ rltb u v = false /\ v <= u.
Proof. destruct (rltb u v) eqn:X; [left; split; auto; now apply rltb_iff | right; split; auto; now apply rltb_false]. Qed.
(** One of the two tests: the quotient t / det lies in [0, 1]. *)
Lemma range_test (det eps t sg : R) : 0 < eps -> (sg = 1 /\ 0 < det \/ sg = -1 /\ det < 0) ->
  (rltb (t * sg) 0 || rltb (det * sg + eps) (t * sg)) = true /\ ~ 0 <= t * sg <= det * sg \/
  (rltb (t * sg) 0 || rltb (det * sg + eps) (t * sg)) = false /\
    ((rltb (det * sg - eps) (t * sg) && rltb ((det - t) * sg) 0) = true /\ ~ 0 <= t * sg <= det * sg \/
     (rltb (det * sg - eps) (t * sg) && rltb ((det - t) * sg) 0) = false /\ 0 <= t * sg <= det * sg).
Proof.
  intros E Sg.
  destruct (rltb_cases (t * sg) 0) as [(-> & A)|(-> & A)]; cbn [orb]; [left; split; auto; lra|].
  destruct (rltb_cases (det * sg + eps) (t * sg)) as [(-> & B)|(-> & B)]; cbn [orb]; [left; split; auto; lra|].
  right. split; auto.
  destruct (rltb_cases (det * sg - eps) (t * sg)) as [(-> & C)|(-> & C)]; cbn [andb]; [|right; split; auto; lra].
  destruct (rltb_cases ((det - t) * sg) 0) as [(-> & D)|(-> & D)]; [left | right]; split; auto; lra.
Qed.
Lemma exact_intersection_spec p0 p1 q0 q1 : det_of p0 p1 q0 q1 <> 0 ->
  exact_intersection p0 p1 q0 q1 (det_of p0 p1 q0 q1) = None /\ ~ crossing p0 p1 q0 q1 \/
  crossing p0 p1 q0 q1 /\
  exact_intersection p0 p1 q0 q1 (det_of p0 p1 q0 q1) =
    Some (let t := cross4 p0 q0 q1 q0 / det_of p0 p1 q0 q1 in
          (fst p0 + t * (fst p1 - fst p0), snd p0 + t * (snd p1 - snd p0))).
Proof.
  intros N. unfold exact_intersection, crossing. set (det := det_of p0 p1 q0 q1) in *.
  rewrite !exact_cross.
  assert (R1 : cross4 p1 q1 q0 q1 = det - cross4 p0 q0 q1 q0)
    by (unfold det, det_of, cross4, cross, psub; cbn [fst snd]; ring).
  assert (R2 : cross4 p1 p0 p1 q1 = det - cross4 p0 p1 p0 q0)
    by (unfold det, det_of, cross4, cross, psub; cbn [fst snd]; ring).
  rewrite R1, R2. clear R1 R2.
  set (t1 := cross4 p0 q0 q1 q0). set (t2 := cross4 p0 p1 p0 q0). clearbody t1 t2.
  replace (reqb det 0) with false by (symmetry; now apply reqb_false).
  assert (E : 0 < Rmax (Rabs det) 1 * kCrossExactEpsilon).
  { apply Rmult_lt_0_compat; [apply Rlt_le_trans with 1; [lra | apply Rmax_r] | unfold kCrossExactEpsilon; apply Rinv_0_lt_compat, pow_lt; lra]. }
  set (eps := Rmax (Rabs det) 1 * kCrossExactEpsilon) in *. clearbody eps. clearbody det.
  set (sg := if rltb det 0 then -1 else 1).
  assert (Sg : sg = 1 /\ 0 < det \/ sg = -1 /\ det < 0).
  { unfold sg. destruct (rltb_cases det 0) as [(-> & X)|(-> & X)]; [right | left]; split; auto; lra. }
  replace (Rabs det) with (det * sg).
  2:{ destruct Sg as [(-> & X)|(-> & X)]; [rewrite Rabs_right | rewrite Rabs_left]; lra. }
  clearbody sg. cbv zeta.
  destruct (range_test det eps t1 sg E Sg) as [(-> & A)|(-> & [(-> & A)|(-> & A)])];
    [left; split; [auto | intros C; apply A; destruct Sg as [(-> & X)|(-> & X)]; lra] ..|].
  destruct (range_test det eps t2 sg E Sg) as [(-> & B)|(-> & [(-> & B)|(-> & B)])];
    [left; split; [auto | intros C; apply B; destruct Sg as [(-> & X)|(-> & X)]; lra] ..|].
  right. split; [destruct Sg as [(-> & X)|(-> & X)]; lra|]. f_equal.
  assert (T : bound_to_range 0 1 (t1 / det) = t1 / det).
  { assert (0 <= t1 / det <= 1).
    { assert (T1 : t1 = t1 / det * det) by (field; auto). set (u := t1 / det) in *. clearbody u.
      destruct Sg as [(-> & X)|(-> & X)]; nra. }
    unfold bound_to_range. rewrite Rmin_right, Rmax_right; lra. }
  rewrite T. unfold padd, psub; cbn [fst snd]. f_equal; ring.
Qed.
Lemma crossing_between p0 p1 q0 q1 : crossing p0 p1 q0 q1 ->
  let t := cross4 p0 q0 q1 q0 / det_of p0 p1 q0 q1 in
  let x := (fst p0 + t * (fst p1 - fst p0), snd p0 + t * (snd p1 - snd p0)) in
  between p0 p1 x /\ between q0 q1 x.
Proof.
  intros C. unfold crossing in C. cbv zeta in *. set (det := det_of p0 p1 q0 q1) in *.
  assert (N : det <> 0) by lra.
  assert (T1 : cross4 p0 q0 q1 q0 = cross4 p0 q0 q1 q0 / det * det) by (field; auto).
  assert (T2 : cross4 p0 p1 p0 q0 = cross4 p0 p1 p0 q0 / det * det) by (field; auto).
  set (t := cross4 p0 q0 q1 q0 / det) in *. set (s := cross4 p0 p1 p0 q0 / det) in *.
  assert (0 <= t <= 1) by (rewrite T1, T2 in C; clearbody t s det; clear - C; destruct C as [C|C]; nra).
  assert (0 <= s <= 1) by (rewrite T1, T2 in C; clearbody t s det; clear - C; destruct C as [C|C]; nra).
  split; [exists t; split; auto; cbn [fst snd]; lra|].
  exists s. split; auto.
  split; cbn [fst snd]; apply (Rmult_eq_reg_r det); auto; rewrite !Rmult_plus_distr_r;
    replace (t * (fst p1 - fst p0) * det) with (t * det * (fst p1 - fst p0)) by ring;
    replace (t * (snd p1 - snd p0) * det) with (t * det * (snd p1 - snd p0)) by ring;
    replace (s * (fst q1 - fst q0) * det) with (s * det * (fst q1 - fst q0)) by ring;
    replace (s * (snd q1 - snd q0) * det) with (s * det * (snd q1 - snd q0)) by ring;
    rewrite <- T1, <- T2; unfold det, det_of, cross4, cross, psub; cbn [fst snd]; ring.
Qed.
Lemma between_crossing p0 p1 q0 q1 x : det_of p0 p1 q0 q1 <> 0 -> between p0 p1 x -> between q0 q1 x -> crossing p0 p1 q0 q1.
Proof.
  intros N (t & T & X1 & X2) (s & U & Y1 & Y2).
  assert (T1 : cross4 p0 q0 q1 q0 = t * det_of p0 p1 q0 q1).
  { unfold det_of, cross4, cross, psub; cbn [fst snd].
    assert (E1 : fst p0 = fst q0 + s * (fst q1 - fst q0) - t * (fst p1 - fst p0)) by lra.
    assert (E2 : snd p0 = snd q0 + s * (snd q1 - snd q0) - t * (snd p1 - snd p0)) by lra.
    assert (D1 : fst q0 - fst p0 = t * (fst p1 - fst p0) - s * (fst q1 - fst q0)) by lra.
    assert (D2 : snd q0 - snd p0 = t * (snd p1 - snd p0) - s * (snd q1 - snd q0)) by lra.
    rewrite D1, D2. ring. }
  assert (T2 : cross4 p0 p1 p0 q0 = s * det_of p0 p1 q0 q1).
  { unfold det_of, cross4, cross, psub; cbn [fst snd].
    assert (D1 : fst q0 - fst p0 = t * (fst p1 - fst p0) - s * (fst q1 - fst q0)) by lra.
    assert (D2 : snd q0 - snd p0 = t * (snd p1 - snd p0) - s * (snd q1 - snd q0)) by lra.
    rewrite D1, D2. ring. }
  unfold crossing. cbv zeta. rewrite T1, T2. set (det := det_of p0 p1 q0 q1) in *. clearbody det.
  destruct (Rlt_dec det 0); [right | left]; repeat split; nra.
Qed.

(** The whole, for segments of a length. *)
Theorem intersection_some p0 p1 q0 q1 x : p0 <> p1 -> q0 <> q1 ->
  exact_intersection p0 p1 q0 q1 (det_of p0 p1 q0 q1) = Some x ->
  between p0 p1 x /\ between q0 q1 x /\
  (det_of p0 p1 q0 q1 = 0 ->
     (x = p0 \/ x = p1 \/ x = q0 \/ x = q1) /\ (between q0 q1 p0 -> x = p0) /\
     turn p0 p1 q0 = 0 /\ turn p0 p1 q1 = 0).
Proof.
  intros Np Nq E. destruct (Req_dec (det_of p0 p1 q0 q1) 0) as [D|D].
  - rewrite D in E. unfold exact_intersection in E.
    replace (reqb 0 0) with true in E by (symmetry; now apply reqb_iff).
    rewrite exact_cross in E. change (cross4 p0 p1 p0 q0) with (turn p0 p1 q0) in E.
    destruct (reqb (turn p0 p1 q0) 0) eqn:T; cbn [negb] in E; [|discriminate]. apply reqb_iff in T.
    assert (T' : turn p0 p1 q1 = 0) by (rewrite det_turn in D; lra).
    destruct (parallel_turn p0 p1 q0 q1 Np T T') as [U V].
    destruct (between_ends p0 p1) as [P0 P1]. destruct (between_ends q0 q1) as [Q0 Q1].
    destruct (colinear_point q0 q1 p0) eqn:E1; cbn [or_else] in E.
    { inversion E; subst. apply colinear_point_some in E1 as (-> & A & B).
      pose proof (line_box q0 q1 p0 Nq U A B). tauto. }
    apply colinear_point_none in E1.
    destruct (colinear_point q0 q1 p1) eqn:E2; cbn [or_else] in E.
    { inversion E; subst. apply colinear_point_some in E2 as (-> & A & B).
      pose proof (line_box q0 q1 p1 Nq V A B). tauto. }
    destruct (colinear_point p0 p1 q0) eqn:E3; cbn [or_else] in E.
    { inversion E; subst. apply colinear_point_some in E3 as (-> & A & B).
      pose proof (line_box p0 p1 q0 Np T A B). tauto. }
    apply colinear_point_some in E as (-> & A & B).
    pose proof (line_box p0 p1 q1 Np T' A B). tauto.
  - destruct (exact_intersection_spec p0 p1 q0 q1 D) as [(X & _)|(C & X)]; rewrite X in E; [discriminate|].
    inversion E; subst. destruct (crossing_between p0 p1 q0 q1 C) as [A B]. tauto.
Qed.
Lemma common_line p0 p1 q0 q1 x : p0 <> p1 -> turn p0 p1 q0 = 0 -> turn p0 p1 q1 = 0 -> between p0 p1 x -> between q0 q1 x ->
  between q0 q1 p0 \/ between q0 q1 p1 \/ between p0 p1 q0 \/ between p0 p1 q1.
Proof.
  intros N A B (t & T & X1 & X2) (s & U & Y1 & Y2).
  destruct (on_line p0 p1 q0 N A) as (a & A1 & A2). destruct (on_line p0 p1 q1 N B) as (b & B1 & B2).
  assert (H : t = a + s * (b - a)).
  { assert (E1 : (t - (a + s * (b - a))) * (fst p1 - fst p0) = 0) by (rewrite A1, B1 in Y1; lra).
    assert (E2 : (t - (a + s * (b - a))) * (snd p1 - snd p0) = 0) by (rewrite A2, B2 in Y2; lra).
    apply Rmult_integral in E1, E2. destruct E1 as [E1|E1]; [lra|]. destruct E2 as [E2|E2]; [lra|].
    elim N. apply pt_eq; lra. }
  destruct (Rle_dec 0 a) as [a0|a0].
  { destruct (Rle_dec a 1) as [a1|a1].
    { right; right; left. exists a. split; [lra|]. split; auto. }
    destruct (Rle_dec 0 b) as [b0|b0].
    { destruct (Rle_dec b 1) as [b1|b1]; [right; right; right; exists b; split; [lra|]; split; auto|].
      exfalso. clear - U H T a1 b1. destruct (Rle_dec a b); nra. }
    left. exists (a / (a - b)).
    assert (E : a / (a - b) * (a - b) = a) by (field; lra). set (u := a / (a - b)) in *. clearbody u.
    split; [nra|]. rewrite A1, A2, B1, B2. split.
    - replace (fst p0 + a * (fst p1 - fst p0) + u * (fst p0 + b * (fst p1 - fst p0) - (fst p0 + a * (fst p1 - fst p0))))
        with (fst p0 + (a - u * (a - b)) * (fst p1 - fst p0)) by ring. rewrite E. ring.
    - replace (snd p0 + a * (snd p1 - snd p0) + u * (snd p0 + b * (snd p1 - snd p0) - (snd p0 + a * (snd p1 - snd p0))))
        with (snd p0 + (a - u * (a - b)) * (snd p1 - snd p0)) by ring. rewrite E. ring. }
  destruct (Rle_dec 0 b) as [b0|b0]; [|exfalso; clear - U H T a0 b0; destruct (Rle_dec a b); nra].
  left. exists (a / (a - b)).
  assert (E : a / (a - b) * (a - b) = a) by (field; lra). set (u := a / (a - b)) in *. clearbody u.
  split; [nra|]. rewrite A1, A2, B1, B2. split.
  - replace (fst p0 + a * (fst p1 - fst p0) + u * (fst p0 + b * (fst p1 - fst p0) - (fst p0 + a * (fst p1 - fst p0))))
      with (fst p0 + (a - u * (a - b)) * (fst p1 - fst p0)) by ring. rewrite E. ring.
  - replace (snd p0 + a * (snd p1 - snd p0) + u * (snd p0 + b * (snd p1 - snd p0) - (snd p0 + a * (snd p1 - snd p0))))
      with (snd p0 + (a - u * (a - b)) * (snd p1 - snd p0)) by ring. rewrite E. ring.
Qed.
Theorem intersection_none p0 p1 q0 q1 x : p0 <> p1 -> q0 <> q1 ->
  exact_intersection p0 p1 q0 q1 (det_of p0 p1 q0 q1) = None -> between p0 p1 x -> between q0 q1 x -> False.
Proof.
  intros Np Nq E A B. destruct (Req_dec (det_of p0 p1 q0 q1) 0) as [D|D].
  - rewrite D in E. unfold exact_intersection in E.
    replace (reqb 0 0) with true in E by (symmetry; now apply reqb_iff).
    rewrite exact_cross in E. change (cross4 p0 p1 p0 q0) with (turn p0 p1 q0) in E.
    assert (T : turn p0 p1 q0 = 0 /\ turn p0 p1 q1 = 0).
    { rewrite det_turn in D. destruct A as (t & T & X1 & X2), B as (s & U & Y1 & Y2).
      assert (Z : turn p0 p1 x = 0) by (unfold turn; rewrite X1, X2; ring).
      assert (Z' : turn p0 p1 x = turn p0 p1 q0 + s * (turn p0 p1 q1 - turn p0 p1 q0)) by (unfold turn; rewrite Y1, Y2; ring).
      replace (turn p0 p1 q1 - turn p0 p1 q0) with 0 in Z' by lra. lra. }
    destruct T as [T T'].
    replace (reqb (turn p0 p1 q0) 0) with true in E by (symmetry; now apply reqb_iff). cbn [negb] in E.
    destruct (colinear_point q0 q1 p0) eqn:E1; cbn [or_else] in E; [discriminate|].
    destruct (colinear_point q0 q1 p1) eqn:E2; cbn [or_else] in E; [discriminate|].
    destruct (colinear_point p0 p1 q0) eqn:E3; cbn [or_else] in E; [discriminate|].
    apply colinear_point_none in E1, E2, E3, E.
    destruct (common_line p0 p1 q0 q1 x Np T T' A B) as [|[|[|]]]; auto.
  - destruct (exact_intersection_spec p0 p1 q0 q1 D) as [(_ & X)|(C & X)]; rewrite ?X in E; [|discriminate].
    apply X. eapply between_crossing; eauto.
Qed.
