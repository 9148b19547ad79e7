(** Boxes and frames: proofs. *)
From Coq Require Import Reals Lra Psatz List Arith Lia Bool.
From Verif Require Import Base ResultLib GeomModel GeomBase FrameModel FrameSpec.
Import ListNotations.
Open Scope R_scope.

Lemma vec3_eq (a b : vec3) : X a = X b -> Y a = Y b -> Z_ a = Z_ b -> a = b.
Proof. destruct a as [[? ?] ?], b as [[? ?] ?]. unfold X, Y, Z_; cbn. now intros -> -> ->. Qed.
Lemma is_zero_true x : is_zero x = true <-> x = 0.
Proof. unfold is_zero. destruct (Req_EM_T x 0); split; auto; discriminate. Qed.
Lemma is_zero_false x : is_zero x = false <-> x <> 0.
Proof. unfold is_zero. destruct (Req_EM_T x 0); split; auto; try discriminate. contradiction. Qed.
Lemma cs1 h : cos h * cos h + sin h * sin h = 1.
Proof. pose proof (sin2_cos2 h) as E. unfold Rsqr in E. lra. Qed.
Ltac unv := unfold apply, compose, get_transform, add3, mulv, matmul, row_mul, dot3, neg3, col0, col1, col2, X, Y, Z_ in *; cbn [r0 r1 r2 rotation translation fst snd] in *.

(** ** Inverse *)
Lemma inverse3_left m v : det3 m <> 0 -> mulv (inverse3 m) (mulv m v) = v.
Proof.
  destruct m as [[[a b] c] [[d e] f] [[g h] i]], v as [[x y] z]. unfold det3, inverse3. unv. intros D.
  apply vec3_eq; unfold X, Y, Z_; cbn [fst snd]; unfold det3; unfold X, Y, Z_; cbn [fst snd r0 r1 r2]; field; exact D.
Qed.
Lemma inverse3_right m v : det3 m <> 0 -> mulv m (mulv (inverse3 m) v) = v.
Proof.
  destruct m as [[[a b] c] [[d e] f] [[g h] i]], v as [[x y] z]. unfold det3, inverse3. unv. intros D.
  apply vec3_eq; unfold X, Y, Z_; cbn [fst snd]; unfold det3; unfold X, Y, Z_; cbn [fst snd r0 r1 r2]; field; exact D.
Qed.
Lemma mulv_matmul a b v : mulv (matmul a b) v = mulv a (mulv b v).
Proof. destruct a as [[[? ?] ?] [[? ?] ?] [[? ?] ?]], b as [[[? ?] ?] [[? ?] ?] [[? ?] ?]], v as [[? ?] ?]. unv. apply vec3_eq; unfold X, Y, Z_; cbn [fst snd]; ring. Qed.
Lemma mulv_add m u v : mulv m (add3 u v) = add3 (mulv m u) (mulv m v).
Proof. destruct m as [[[? ?] ?] [[? ?] ?] [[? ?] ?]], u as [[? ?] ?], v as [[? ?] ?]. unv. apply vec3_eq; unfold X, Y, Z_; cbn [fst snd]; ring. Qed.
Lemma mulv_neg m u : mulv m (neg3 u) = neg3 (mulv m u).
Proof. destruct m as [[[? ?] ?] [[? ?] ?] [[? ?] ?]], u as [[? ?] ?]. unv. apply vec3_eq; unfold X, Y, Z_; cbn [fst snd]; ring. Qed.
Lemma add_neg u v : add3 (add3 u v) (neg3 v) = u.
Proof. destruct u as [[? ?] ?], v as [[? ?] ?]. unv. apply vec3_eq; unfold X, Y, Z_; cbn [fst snd]; ring. Qed.
Lemma add_neg' u v : add3 (add3 u (neg3 v)) v = u.
Proof. destruct u as [[? ?] ?], v as [[? ?] ?]. unv. apply vec3_eq; unfold X, Y, Z_; cbn [fst snd]; ring. Qed.
Lemma add_assoc u v w : add3 (add3 u v) w = add3 u (add3 v w).
Proof. destruct u as [[? ?] ?], v as [[? ?] ?], w as [[? ?] ?]. unv. apply vec3_eq; unfold X, Y, Z_; cbn [fst snd]; ring. Qed.
Lemma apply_compose a b p : apply (compose a b) p = apply a (apply b p).
Proof. unfold apply, compose. cbn [rotation translation]. now rewrite mulv_matmul, mulv_add, add_assoc. Qed.
Lemma world_apply f p : world f p = apply f p.
Proof. destruct f as [[[[? ?] ?] [[? ?] ?] [[? ?] ?]] [[? ?] ?]], p as [[? ?] ?]. reflexivity. Qed.
Lemma singular_iff m : singular m <-> det3 m = 0.
Proof.
  destruct m as [[[a b] c] [[d e] f] [[g h] i]]. unfold singular, det3, inner, outer, axis_x, axis_y, axis_z, X, Y, Z_. cbn [r0 r1 r2 fst snd].
  split; intros E; rewrite <- E; ring.
Qed.
Lemma inverse_spec f : det3 (rotation f) <> 0 -> exists g, inverse f = Ok g /\ (forall p, apply g (apply f p) = p) /\ (forall p, apply f (apply g p) = p).
Proof.
  intros D. unfold inverse. rewrite (proj2 (is_zero_false _) D). eexists. split; [reflexivity|]. unfold apply. cbn [rotation translation]. split; intros p.
  - rewrite mulv_add, inverse3_left by auto. apply add_neg.
  - rewrite mulv_add, mulv_neg, !inverse3_right by auto. apply add_neg'.
Qed.

(** ** Points *)
Theorem transform_point_iff p f t : forall q, transform_point p f t = Ok q <-> ~ singular (rotation t) /\ world t q = world f p.
Proof.
  intros q. rewrite singular_iff, !world_apply. unfold transform_point. destruct (Req_EM_T (det3 (rotation t)) 0) as [E|D].
  - unfold inverse. rewrite (proj2 (is_zero_true _) E). cbn [bind]. split; [discriminate | intros [N _]; contradiction].
  - destruct (inverse_spec t D) as (g & G & L & R). rewrite G. cbn [bind]. rewrite apply_compose. split.
    + intros H. injection H as <-. split; auto.
    + intros [_ H]. f_equal. rewrite <- H. apply L.
Qed.
Theorem transform_point_error p f t : singular (rotation t) -> transform_point p f t = Err RuntimeError.
Proof. intros S. apply singular_iff in S. unfold transform_point, inverse. now rewrite (proj2 (is_zero_true _) S). Qed.
Lemma transform_point_total p f t : ~ singular (rotation t) -> exists q, transform_point p f t = Ok q.
Proof.
  intros S. rewrite singular_iff in S. unfold transform_point. destruct (inverse_spec t S) as (g & G & _). rewrite G. cbn [bind]. eauto.
Qed.
Theorem transform_point_same p f : ~ singular (rotation f) -> transform_point p f f = Ok p.
Proof. intros S. apply transform_point_iff. auto. Qed.
Theorem transform_point_chain p f g h q : transform_point p f g = Ok q -> transform_point q g h = transform_point p f h.
Proof.
  intros H. apply transform_point_iff in H. destruct H as [_ H]. destruct (Req_EM_T (det3 (rotation h)) 0) as [E|D].
  - rewrite !transform_point_error by (now apply singular_iff). reflexivity.
  - assert (N : ~ singular (rotation h)) by (now rewrite singular_iff). destruct (transform_point_total p f h N) as (r & R). rewrite R.
    apply transform_point_iff. apply transform_point_iff in R. destruct R as [_ R]. split; auto. now rewrite R.
Qed.
Theorem transform_point_back p f g q : ~ singular (rotation f) -> transform_point p f g = Ok q -> transform_point q g f = Ok p.
Proof. intros S H. rewrite (transform_point_chain p f g f q H). now apply transform_point_same. Qed.

(** ** Rotations *)
Lemma proper_det m : proper m -> det3 m = 1.
Proof.
  intros (A & B & C & D). destruct m as [[[a b] c] [[d e] f] [[g h] i]]. unfold inner, outer, axis_x, axis_y, axis_z in *. cbn [r0 r1 r2 fst snd] in *.
  injection D as -> -> ->. unfold det3, X, Y, Z_. cbn [fst snd r0 r1 r2].
  transitivity ((a * a + d * d + g * g) * (b * b + e * e + h * h) - (a * b + d * e + g * h) * (a * b + d * e + g * h)); [ring|]. rewrite A, B, C. ring.
Qed.
Definition transpose (m : mat3) : mat3 := {| r0 := axis_x m; r1 := axis_y m; r2 := axis_z m |}.
Lemma proper_inverse m : proper m -> inverse3 m = transpose m.
Proof.
  intros H. pose proof (proper_det m H) as E. destruct H as (A & B & C & D). unfold inverse3. rewrite E.
  destruct m as [[[a b] c] [[d e] f] [[g h] i]]. unfold transpose, inner, outer, axis_x, axis_y, axis_z in *. cbn [r0 r1 r2 fst snd] in *.
  injection D as -> -> ->. unfold X, Y, Z_. cbn [r0 r1 r2 fst snd]. unfold Rdiv. rewrite Rinv_1.
  assert (U : forall x y z, (x, y, z) = (x, y, z) :> vec3) by auto.
  f_equal; apply vec3_eq; unfold X, Y, Z_; cbn [fst snd]; try ring.
  - transitivity (a * (b * b + e * e + h * h) - b * (a * b + d * e + g * h)); [ring | rewrite B, C; ring].
  - transitivity (d * (b * b + e * e + h * h) - e * (a * b + d * e + g * h)); [ring | rewrite B, C; ring].
  - transitivity (g * (b * b + e * e + h * h) - h * (a * b + d * e + g * h)); [ring | rewrite B, C; ring].
  - transitivity (b * (a * a + d * d + g * g) - a * (a * b + d * e + g * h)); [ring | rewrite A, C; ring].
  - transitivity (e * (a * a + d * d + g * g) - d * (a * b + d * e + g * h)); [ring | rewrite A, C; ring].
  - transitivity (h * (a * a + d * d + g * g) - g * (a * b + d * e + g * h)); [ring | rewrite A, C; ring].
Qed.
Lemma proper_not_singular m : proper m -> ~ singular m.
Proof. intros H. rewrite singular_iff, proper_det by auto. lra. Qed.
(** A vector from its components along the axes. *)
Lemma proper_expand m v : proper m -> mulv m (inner (axis_x m) v, inner (axis_y m) v, inner (axis_z m) v) = v.
Proof.
  intros H. rewrite <- (inverse3_right m v) at 4 by (rewrite proper_det by auto; lra). rewrite proper_inverse by auto. reflexivity.
Qed.
Lemma proper_z m : proper m -> inner (axis_z m) (axis_z m) = 1 /\ inner (axis_x m) (axis_z m) = 0 /\ inner (axis_y m) (axis_z m) = 0.
Proof.
  intros (A & B & C & D). destruct m as [[[a b] c] [[d e] f] [[g h] i]]. unfold inner, outer, axis_x, axis_y, axis_z in *. cbn [r0 r1 r2 fst snd] in *.
  injection D as -> -> ->. repeat split; try ring.
  transitivity ((a * a + d * d + g * g) * (b * b + e * e + h * h) - (a * b + d * e + g * h) * (a * b + d * e + g * h)); [ring|]. rewrite A, B, C. ring.
Qed.
Lemma inner_sym a b : inner a b = inner b a. Proof. unfold inner. ring. Qed.
Lemma expand_norm m v : proper m ->
  inner v v = inner (axis_x m) v * inner (axis_x m) v + inner (axis_y m) v * inner (axis_y m) v + inner (axis_z m) v * inner (axis_z m) v.
Proof.
  intros H. pose proof (proper_expand m v H) as E. rewrite <- E at 1 2. destruct (proper_z m H) as (Z1 & Z2 & Z3). destruct H as (A & B & C & _).
  set (p := inner (axis_x m) v). set (q := inner (axis_y m) v). set (r := inner (axis_z m) v). clearbody p q r.
  transitivity (p * p * inner (axis_x m) (axis_x m) + q * q * inner (axis_y m) (axis_y m) + r * r * inner (axis_z m) (axis_z m) +
     2 * p * q * inner (axis_x m) (axis_y m) + 2 * p * r * inner (axis_x m) (axis_z m) + 2 * q * r * inner (axis_y m) (axis_z m)).
  - clear. destruct m as [[[a b] c] [[d e] f] [[g h] i]]. unfold inner, axis_x, axis_y, axis_z. unv. ring.
  - rewrite A, B, C, Z1, Z2, Z3. ring.
Qed.
Lemma triple a b c : inner a (outer b c) = inner (outer a b) c.
Proof. destruct a as [[? ?] ?], b as [[? ?] ?], c as [[? ?] ?]. unfold inner, outer. cbn [fst snd]. ring. Qed.
Lemma outer_yz m : proper m -> outer (axis_y m) (axis_z m) = axis_x m.
Proof.
  intros (A & B & C & D). destruct m as [[[a b] c] [[d e] f] [[g h] i]]. unfold inner, outer, axis_x, axis_y, axis_z in *. cbn [r0 r1 r2 fst snd] in *.
  injection D as -> -> ->. apply vec3_eq; unfold X, Y, Z_; cbn [fst snd].
  - transitivity (a * (b * b + e * e + h * h) - b * (a * b + d * e + g * h)); [ring | rewrite B, C; ring].
  - transitivity (d * (b * b + e * e + h * h) - e * (a * b + d * e + g * h)); [ring | rewrite B, C; ring].
  - transitivity (g * (b * b + e * e + h * h) - h * (a * b + d * e + g * h)); [ring | rewrite B, C; ring].
Qed.
Lemma outer_zx m : proper m -> outer (axis_z m) (axis_x m) = axis_y m.
Proof.
  intros (A & B & C & D). destruct m as [[[a b] c] [[d e] f] [[g h] i]]. unfold inner, outer, axis_x, axis_y, axis_z in *. cbn [r0 r1 r2 fst snd] in *.
  injection D as -> -> ->. apply vec3_eq; unfold X, Y, Z_; cbn [fst snd].
  - transitivity (b * (a * a + d * d + g * g) - a * (a * b + d * e + g * h)); [ring | rewrite A, C; ring].
  - transitivity (e * (a * a + d * d + g * g) - d * (a * b + d * e + g * h)); [ring | rewrite A, C; ring].
  - transitivity (h * (a * a + d * d + g * g) - g * (a * b + d * e + g * h)); [ring | rewrite A, C; ring].
Qed.
Lemma outer_anti a b : outer a b = neg3 (outer b a).
Proof. destruct a as [[? ?] ?], b as [[? ?] ?]. unfold outer, neg3, X, Y, Z_. cbn [fst snd]. apply vec3_eq; unfold X, Y, Z_; cbn [fst snd]; ring. Qed.
Lemma inner_neg a b : inner (neg3 a) b = - inner a b.
Proof. destruct a as [[? ?] ?], b as [[? ?] ?]. unfold inner, neg3, X, Y, Z_. cbn [fst snd]. ring. Qed.

(** The matrix from one level frame to another is a turn about the vertical. *)
Lemma level_relative f t : proper (rotation f) -> proper (rotation t) -> level f t ->
  exists c s, c * c + s * s = 1 /\ matmul (inverse3 (rotation t)) (rotation f) = {| r0 := (c, - s, 0); r1 := (s, c, 0); r2 := (0, 0, 1) |}.
Proof.
  unfold level. intros HF HT L. set (A := rotation t) in *. set (B := rotation f) in *.
  exists (inner (axis_x A) (axis_x B)), (inner (axis_y A) (axis_x B)).
  destruct (proper_z A HT) as (Z1 & Z2 & Z3). destruct (proper_z B HF) as (Y1 & Y2 & Y3).
  assert (zx : inner (axis_z A) (axis_x B) = 0) by (rewrite <- L, inner_sym; exact Y2).
  assert (zy : inner (axis_z A) (axis_y B) = 0) by (rewrite <- L, inner_sym; exact Y3).
  assert (xz : inner (axis_x A) (axis_z B) = 0) by (rewrite L; exact Z2).
  assert (yz : inner (axis_y A) (axis_z B) = 0) by (rewrite L; exact Z3).
  assert (zz : inner (axis_z A) (axis_z B) = 1) by (rewrite L; exact Z1).
  assert (yy : inner (axis_y A) (axis_y B) = inner (axis_x A) (axis_x B)).
  { rewrite <- (outer_zx B HF), L, triple, outer_yz by auto. reflexivity. }
  assert (xy : inner (axis_x A) (axis_y B) = - inner (axis_y A) (axis_x B)).
  { rewrite <- (outer_zx B HF), L, triple, outer_anti, outer_zx, inner_neg by auto. reflexivity. }
  split.
  - pose proof (expand_norm A (axis_x B) HT) as E. destruct HF as (E1 & _). rewrite E1, zx in E. lra.
  - rewrite proper_inverse by auto. unfold matmul, transpose, row_mul. cbn [r0 r1 r2].
    change (dot3 (axis_x A) (col0 B)) with (inner (axis_x A) (axis_x B)). change (dot3 (axis_x A) (col1 B)) with (inner (axis_x A) (axis_y B)).
    change (dot3 (axis_x A) (col2 B)) with (inner (axis_x A) (axis_z B)). change (dot3 (axis_y A) (col0 B)) with (inner (axis_y A) (axis_x B)).
    change (dot3 (axis_y A) (col1 B)) with (inner (axis_y A) (axis_y B)). change (dot3 (axis_y A) (col2 B)) with (inner (axis_y A) (axis_z B)).
    change (dot3 (axis_z A) (col0 B)) with (inner (axis_z A) (axis_x B)). change (dot3 (axis_z A) (col1 B)) with (inner (axis_z A) (axis_y B)).
    change (dot3 (axis_z A) (col2 B)) with (inner (axis_z A) (axis_z B)). now rewrite xy, xz, yy, yz, zx, zy, zz.
Qed.

(** ** The angle *)
Lemma atan2_spec y x : x * x + y * y = 1 -> cos (atan2 y x) = x /\ sin (atan2 y x) = y.
Proof.
  intros E. unfold atan2.
  assert (T : x <> 0 -> sqrt (1 + Rsqr (y / x)) = / Rabs x).
  { intros N. replace (1 + Rsqr (y / x)) with (Rsqr (/ x)). - rewrite sqrt_Rsqr_abs. now rewrite Rabs_inv.
    - unfold Rsqr, Rdiv. transitivity ((x * x + y * y) * (/ x * / x)); [rewrite E; ring | field; auto]. }
  destruct (rltb 0 x) eqn:P.
  - apply rltb_iff in P. rewrite cos_atan, sin_atan, T by lra. rewrite Rabs_right by lra. split; field; lra.
  - apply rltb_false in P. destruct (rltb x 0) eqn:N.
    + apply rltb_iff in N. assert (Q1 : 1 / sqrt (1 + Rsqr (y / x)) = - x) by (rewrite T, Rabs_left by lra; field; lra).
      assert (Q2 : y / x / sqrt (1 + Rsqr (y / x)) = - y) by (rewrite T, Rabs_left by lra; field; lra).
      destruct (rleb 0 y).
      * rewrite neg_cos, neg_sin, cos_atan, sin_atan, Q1, Q2. split; ring.
      * replace (atan (y / x) - PI) with (- (PI - atan (y / x))) by ring. rewrite cos_neg, sin_neg, Rtrigo_facts.cos_pi_minus, Rtrigo_facts.sin_pi_minus, cos_atan, sin_atan, Q1, Q2. split; ring.
    + apply rltb_false in N. assert (x = 0) by lra. subst x. assert (F : y = 1 \/ y = -1).
      { assert ((y - 1) * (y + 1) = 0) by lra. apply Rmult_integral in H. destruct H; [left | right]; lra. }
      destruct F as [-> | ->].
      * rewrite (proj2 (rltb_iff 0 1)) by lra. now rewrite cos_PI2, sin_PI2.
      * rewrite (proj2 (rltb_false 0 (-1))) by lra. rewrite (proj2 (rltb_iff (-1) 0)) by lra. now rewrite cos_neg, sin_neg, cos_PI2, sin_PI2.
Qed.
