(** Stored values, transformations and samples of segments. *)
From Coq Require Import Reals Lra Lia Psatz.
From Verif Require Import Base ListLib GeomModel GeomSpec GeomBase FrameModel FrameProofs LidModel LidSpec LidBeams LineModel LineSpec LineProofs.
From Verif Require Import LineModel.
Open Scope R_scope.

(** ** Angles *)
Lemma positive_modulo_spec x y : 0 < y -> 0 <= positive_modulo x y < y /\ exists k : Z, positive_modulo x y = x - IZR k * y.
Proof.
  intros Y. unfold positive_modulo. replace (x * (1 / y)) with (x / y) by (field; lra). set (q := x / y). assert (Eq : x = q * y) by (unfold q; field; lra).
  assert (T : (0 <= q /\ IZR (rtrunc q) <= q < IZR (rtrunc q) + 1) \/ (q < 0 /\ q <= IZR (rtrunc q) < q + 1)).
  { unfold rtrunc. destruct (rleb 0 q) eqn:E; [apply rleb_iff in E; left|apply rleb_false in E; right].
    - destruct (base_Int_part q). split; [exact E|]. lra.
    - destruct (base_Int_part (- q)). split; [exact E|]. rewrite opp_IZR. lra. }
  clearbody q. set (k := rtrunc q) in *. clearbody k. destruct (rleb 0 (x - IZR k * y)) eqn:E; [apply rleb_iff in E|apply rleb_false in E].
  - split; [|now exists k]. split; [exact E|]. destruct T as [[A B]|[A B]]; nra.
  - assert (S1 : rleb y (y + (x - IZR k * y)) = false) by (apply rleb_false; lra). rewrite S1. split.
    + split; [|lra]. destruct T as [[A B]|[A B]]; nra.
    + exists (k - 1)%Z. rewrite minus_IZR. ring.
Qed.
Lemma normalize_spec a : - PI <= normalize_angle a < PI /\ whole_turns (normalize_angle a) a.
Proof.
  pose proof PI_RGT_0 as P. unfold normalize_angle, wrap_to_range. destruct (positive_modulo_spec (a - - PI) (PI - - PI)) as [B (k & E)]; [lra|]. split; [lra|].
  exists (- k)%Z. rewrite E, opp_IZR. ring.
Qed.
Lemma cos_sin_nat x k : cos (x + INR k * (2 * PI)) = cos x /\ sin (x + INR k * (2 * PI)) = sin x.
Proof. replace (INR k * (2 * PI)) with (2 * INR k * PI) by ring. split; [apply cos_period|apply sin_period]. Qed.
Lemma cos_sin_turns a b : whole_turns a b -> cos a = cos b /\ sin a = sin b.
Proof.
  intros (k & E). assert (Ea : a = b + IZR k * (2 * PI)) by lra. subst a. destruct (Z_le_gt_dec 0 k) as [H|H].
  - replace (IZR k) with (INR (Z.to_nat k)) by (rewrite INR_IZR_INZ, Z2Nat.id by lia; reflexivity). apply cos_sin_nat.
  - destruct (cos_sin_nat (b + IZR k * (2 * PI)) (Z.to_nat (- k))) as [C S1].
    rewrite INR_IZR_INZ, Z2Nat.id, opp_IZR in C, S1 by lia. replace (b + IZR k * (2 * PI) + - IZR k * (2 * PI)) with b in C, S1 by ring. split; symmetry; assumption.
Qed.

(** ** The stored values stay right *)
Lemma size_zero s : size s = 0 <-> start_ s = end_ s. Proof. apply dist_zero. Qed.
Lemma size_nonneg s : 0 <= size s. Proof. apply dist_nonneg. Qed.
Lemma truthful_like s s' :
  truthful s -> size s' = size s -> length_ s' = length_ s -> inv_length_ s' = inv_length_ s ->
  (forall h, heading_ s' = Some h -> leads s' h) -> truthful s'.
Proof. intros (A & B & _) E L I H. unfold truthful. rewrite E, L, I. split; [exact A|]. split; [exact B|exact H]. Qed.
Lemma size_same s s' : start_ s' = start_ s -> end_ s' = end_ s -> size s' = size s.
Proof. unfold size. now intros -> ->. Qed.
Lemma leads_same s s' h : start_ s' = start_ s -> end_ s' = end_ s -> leads s h -> leads s' h.
Proof. unfold leads, size. now intros -> ->. Qed.
Lemma get_length_spec s : truthful s -> fst (get_length s) = size s /\ truthful (snd (get_length s)) /\ ends (snd (get_length s)) = ends s.
Proof.
  intros T. unfold get_length. destruct (length_ s) as [l|] eqn:E; cbn [fst snd].
  - destruct T as (A & B & C). split; [now apply A|]. split; [split; [exact A|split; [exact B|exact C]]|reflexivity].
  - rewrite vdistance_dist. split; [reflexivity|]. split; [|reflexivity]. destruct T as (A & B & C). split; [|split].
    + cbn [length_]. intros l Hl. injection Hl as <-. reflexivity.
    + exact B.
    + exact C.
Qed.
Lemma ends_eq s s' : ends s' = ends s -> start_ s' = start_ s /\ end_ s' = end_ s.
Proof. unfold ends. intros H. now injection H. Qed.
Lemma get_inv_spec s : truthful s ->
  fst (get_inv_length s) = (if Req_EM_T (size s) 0 then 0 else / size s) /\ truthful (snd (get_inv_length s)) /\ ends (snd (get_inv_length s)) = ends s.
Proof.
  intros T. unfold get_inv_length. destruct (inv_length_ s) as [i|] eqn:E; cbn [fst snd].
  - destruct T as (A & B & C). split; [now apply B|]. split; [split; [exact A|split; [exact B|exact C]]|reflexivity].
  - destruct (get_length_spec s T) as (V & T1 & E1). destruct (get_length s) as [len s1]. cbn [fst snd] in *. subst len.
    destruct (ends_eq _ _ E1) as [Ea Eb]. assert (Es : size s1 = size s) by (now apply size_same).
    assert (Ei : (if is_zero (size s) then 0 else 1 / size s) = (if Req_EM_T (size s) 0 then 0 else / size s)).
    { unfold is_zero. destruct (Req_EM_T (size s) 0); [reflexivity|]. unfold Rdiv. ring. }
    rewrite Ei. split; [reflexivity|]. destruct T1 as (A & B & C). split.
    + split; [exact A|]. split; [|exact C]. cbn [inv_length_]. intros i Hi. injection Hi as <-. 
      change (size {| start_ := start_ s1; end_ := end_ s1; heading_ := heading_ s1; length_ := length_ s1; inv_length_ := Some (if Req_EM_T (size s) 0 then 0 else / size s) |}) with (size s1).
      now rewrite Es.
    + unfold ends. cbn [start_ end_]. now rewrite Ea, Eb.
Qed.
Lemma get_heading_spec s : truthful s -> leads s (fst (get_heading s)) /\ truthful (snd (get_heading s)) /\ ends (snd (get_heading s)) = ends s.
Proof.
  intros T. unfold get_heading. destruct (heading_ s) as [h|] eqn:E; cbn [fst snd].
  - destruct T as (A & B & C). split; [now apply C|]. split; [split; [exact A|split; [exact B|exact C]]|reflexivity].
  - assert (L : leads s (atan2 (snd (end_ s) - snd (start_ s)) (fst (end_ s) - fst (start_ s)))).
    { destruct (atan2_angle (snd (end_ s) - snd (start_ s)) (fst (end_ s) - fst (start_ s))) as [_ [(rho & P & X & Y)|(X & Y & Z)]].
      - set (a := atan2 _ _) in *. assert (Er : size s = rho).
        { unfold size. rewrite dist_norm. apply norm_unique; [lra|]. unfold psub. cbn [fst snd].
          replace (rho * rho) with (rho * rho * ((sin a)² + (cos a)²)) by (rewrite sin2_cos2; ring). unfold Rsqr.
          replace ((fst (start_ s) - fst (end_ s)) * (fst (start_ s) - fst (end_ s))) with ((rho * cos a) * (rho * cos a)) by (rewrite <- X; ring).
          replace ((snd (start_ s) - snd (end_ s)) * (snd (start_ s) - snd (end_ s))) with ((rho * sin a) * (rho * sin a)) by (rewrite <- Y; ring). ring. }
        unfold leads. rewrite Er. split; assumption.
      - assert (Ez : size s = 0). { apply size_zero. destruct (start_ s), (end_ s). cbn [fst snd] in *. f_equal; lra. }
        unfold leads. rewrite Ez, X, Y. split; ring. }
    split; [exact L|]. destruct T as (A & B & C). split; [|reflexivity]. split; [exact A|]. split; [exact B|].
    cbn [heading_]. intros h Hh. injection Hh as <-. exact L.
Qed.
Lemma leads_turns s h h' : whole_turns h' h -> leads s h -> leads s h'.
Proof. intros W [A B]. unfold leads. destruct (cos_sin_turns _ _ W) as [-> ->]. now split. Qed.
Lemma flip_truthful s : truthful s -> truthful (flip s).
Proof.
  intros T. assert (Sz : forall h, size (seg_like_heading (end_ s) (start_ s) h s) = size s) by (intros h; unfold size; cbn; apply dist_sym).
  unfold flip. destruct (heading_ s) as [h|] eqn:E.
  - apply (truthful_like s); auto. cbn [heading_ seg_like_heading]. intros h' Hh. injection Hh as <-.
    apply (leads_turns _ (h + PI)); [apply normalize_spec|]. destruct T as (_ & _ & C). destruct (C h E) as [X Y]. unfold leads. rewrite Sz. cbn [start_ end_ seg_like_heading].
    rewrite neg_cos, neg_sin. split; lra.
  - apply (truthful_like s); auto; [unfold size; cbn; apply dist_sym|]. cbn [heading_ seg_like]. rewrite E. discriminate.
Qed.
Lemma turned_dist c a p q : dist (turned c a p) (turned c a q) = dist p q.
Proof.
  rewrite !dist_norm. apply norm_unique; [apply norm_nonneg|]. rewrite norm_sqr. unfold turned, psub. cbn [fst snd].
  pose proof (sin2_cos2 a) as P. unfold Rsqr in P. destruct p as [p1 p2], q as [q1 q2]. cbn [fst snd].
  replace ((p1 - q1) * (p1 - q1) + (p2 - q2) * (p2 - q2)) with ((sin a * sin a + cos a * cos a) * ((p1 - q1) * (p1 - q1) + (p2 - q2) * (p2 - q2))) by (rewrite P; ring). ring.
Qed.
Lemma rotate_origin_turned a p : rotate_vector a p = turned (0, 0) a p.
Proof. unfold rotate_vector, turned. cbn [fst snd]. f_equal; ring. Qed.
Lemma rotate_point_turned c a p : padd (rotate_vector a (psub p c)) c = turned c a p.
Proof. unfold rotate_vector, turned, padd, psub. cbn [fst snd]. f_equal; ring. Qed.
Lemma turned_truthful s c a s' : truthful s -> start_ s' = turned c a (start_ s) -> end_ s' = turned c a (end_ s) ->
  length_ s' = length_ s -> inv_length_ s' = inv_length_ s ->
  (heading_ s' = match heading_ s with Some h => Some (normalize_angle (h + a)) | None => None end) -> truthful s'.
Proof.
  intros T A B L I H. assert (Sz : size s' = size s) by (unfold size; rewrite A, B; apply turned_dist). apply (truthful_like s); auto.
  intros h' Hh. rewrite H in Hh. destruct (heading_ s) as [h|] eqn:E; [|discriminate]. injection Hh as <-. apply (leads_turns _ (h + a)); [apply normalize_spec|].
  destruct T as (_ & _ & C). destruct (C h E) as [X Y]. unfold leads. rewrite Sz, A, B. unfold turned. cbn [fst snd]. rewrite cos_plus, sin_plus.
  destruct (start_ s) as [s1 s2], (end_ s) as [e1 e2]. cbn [fst snd] in *. split.
  - replace (fst c + (cos a * (e1 - fst c) - sin a * (e2 - snd c)) - (fst c + (cos a * (s1 - fst c) - sin a * (s2 - snd c)))) with (cos a * (e1 - s1) - sin a * (e2 - s2)) by ring. rewrite X, Y. ring.
  - replace (snd c + (sin a * (e1 - fst c) + cos a * (e2 - snd c)) - (snd c + (sin a * (s1 - fst c) + cos a * (s2 - snd c)))) with (sin a * (e1 - s1) + cos a * (e2 - s2)) by ring. rewrite X, Y. ring.
Qed.
Lemma shift_truthful s v : truthful s -> truthful (shift_center s v).
Proof.
  intros T. assert (Sz : size (shift_center s v) = size s).
  { unfold size, shift_center. cbn [start_ end_ seg_like]. rewrite !dist_norm. apply norm_unique; [apply norm_nonneg|]. rewrite norm_sqr. unfold psub, padd. cbn [fst snd]. ring. }
  apply (truthful_like s); auto. cbn [shift_center heading_ seg_like]. intros h Hh. destruct T as (_ & _ & C). destruct (C h Hh) as [X Y]. unfold leads. rewrite Sz.
  unfold shift_center. cbn [start_ end_ seg_like]. unfold padd. cbn [fst snd]. split; lra.
Qed.
Lemma trig_spec s : truthful s -> let c := fst (get_trig s) in
  truthful (snd (get_trig s)) /\ ends (snd (get_trig s)) = ends s /\
  fst (end_ s) - fst (start_ s) = size s * fst c /\ snd (end_ s) - snd (start_ s) = size s * snd c /\ fst c * fst c + snd c * snd c = 1.
Proof.
  intros T c. unfold c, get_trig. clear c. destruct (get_inv_spec s T) as (V & T1 & E1). destruct (get_inv_length s) as [i s1]. cbn [fst snd] in *.
  destruct (ends_eq _ _ E1) as [Ea Eb]. assert (Es : size s1 = size s) by (now apply size_same). pose proof (size_nonneg s) as Pn.
  destruct (Req_EM_T (size s) 0) as [Z|Z]; subst i.
  - rewrite (proj2 (is_zero_iff 0)) by reflexivity. destruct (get_heading_spec s1 T1) as (L & T2 & E2). destruct (get_heading s1) as [h s2]. cbn [fst snd] in *.
    split; [exact T2|]. split; [congruence|]. destruct L as [X Y]. rewrite Es, Ea, Eb in X, Y. split; [exact X|]. split; [exact Y|].
    pose proof (sin2_cos2 h) as P. unfold Rsqr in P. lra.
  - assert (Nz : / size s <> 0) by (now apply Rinv_neq_0_compat). rewrite (proj2 (is_zero_false _)) by exact Nz. cbn [fst snd]. rewrite Ea, Eb.
    split; [exact T1|]. split; [exact E1|]. split; [field; exact Z|]. split; [field; exact Z|].
    pose proof (dist_sqr (start_ s) (end_ s)) as Q. fold (size s) in Q.
    replace (/ size s * (fst (end_ s) - fst (start_ s)) * (/ size s * (fst (end_ s) - fst (start_ s))) + / size s * (snd (end_ s) - snd (start_ s)) * (/ size s * (snd (end_ s) - snd (start_ s))))
      with (((fst (start_ s) - fst (end_ s)) * (fst (start_ s) - fst (end_ s)) + (snd (start_ s) - snd (end_ s)) * (snd (start_ s) - snd (end_ s))) / (size s * size s)) by (field; exact Z).
    rewrite <- Q. field. exact Z.
Qed.
Lemma with_length {A} s (f : R -> seg -> A * seg) : truthful s ->
  (forall l s1, snd (f l s1) = s1) ->
  truthful (snd (let '(l, s1) := get_length s in f l s1)) /\ ends (snd (let '(l, s1) := get_length s in f l s1)) = ends s.
Proof.
  intros T H. destruct (get_length_spec s T) as (_ & T1 & E1). destruct (get_length s) as [l s1]. rewrite H. cbn [snd] in *. now split.
Qed.
Lemma run_spec s c : truthful s -> truthful (run s c) /\ ends (run s c) = effect c (ends s).
Proof.
  intros T. destruct c as [| |a|p a|a|v|p| | | | | | |p|d]; cbn [run effect].
  - unfold seg_copy, seg_like. destruct s. cbn. split; [exact T|reflexivity].
  - split; [now apply flip_truthful|]. unfold flip. destruct (heading_ s); reflexivity.
  - split.
    + apply (turned_truthful s (0, 0) a); auto; unfold rotate_around_origin; destruct (heading_ s) eqn:E; cbn; try apply rotate_origin_turned; try reflexivity. exact E.
    + unfold rotate_around_origin, ends. destruct (heading_ s); cbn [start_ end_ seg_like seg_like_heading fst snd]; now rewrite !rotate_origin_turned.
  - split.
    + apply (turned_truthful s p a); auto; unfold rotate_around_point; destruct (heading_ s) eqn:E; cbn [start_ end_ length_ inv_length_ heading_ seg_like seg_like_heading]; try apply rotate_point_turned; try reflexivity. exact E.
    + unfold rotate_around_point, ends. destruct (heading_ s); cbn [start_ end_ seg_like seg_like_heading fst snd]; now rewrite !rotate_point_turned.
  - unfold rotate_around_center. change (seg_center s) with (middle (start_ s) (end_ s)). split.
    + apply (turned_truthful s (middle (start_ s) (end_ s)) a); auto; unfold rotate_around_point; destruct (heading_ s) eqn:E; cbn [start_ end_ length_ inv_length_ heading_ seg_like seg_like_heading]; try apply rotate_point_turned; try reflexivity. exact E.
    + unfold rotate_around_point, ends. destruct (heading_ s); cbn [start_ end_ seg_like seg_like_heading fst snd]; now rewrite !rotate_point_turned.
  - split; [now apply shift_truthful|reflexivity].
  - split; [now apply shift_truthful|]. reflexivity.
  - destruct (get_length_spec s T) as (_ & A & B). now split.
  - destruct (get_inv_spec s T) as (_ & A & B). now split.
  - destruct (get_heading_spec s T) as (_ & A & B). now split.
  - destruct (trig_spec s T) as (A & B & _). now split.
  - unfold get_tangent. apply (with_length s (fun len s1 => if is_zero len then ((0, 0), s1) else (times (psub (end_ s1) (start_ s1)) (1 / len), s1))); [exact T|].
    intros l s1. now destruct (is_zero l).
  - unfold get_perp_unit. apply (with_length s (fun len s1 => if is_zero len then ((0, 0), s1) else (times (perp (psub (end_ s1) (start_ s1))) (1 / len), s1))); [exact T|].
    intros l s1. now destruct (is_zero l).
  - unfold perp_dist. cbv zeta. apply (with_length s (fun len s1 => (if is_zero len then Err RuntimeError else Ok (- cross (psub (end_ s) (start_ s)) (psub p (start_ s)) / len), s1))); [exact T|]. reflexivity.
  - unfold sample. destruct (rltb d 0); [now split|]. cbv zeta.
    apply (with_length s (fun len s1 => if rltb len 0 then (Err CheckFailed, s1) else if is_zero len then (Ok (false, start_ s1), s1)
       else (Ok (rltb (d / len) 1, padd (start_ s1) (times (psub (end_ s) (start_ s)) (d / len))), s1))); [exact T|].
    intros l s1. destruct (rltb l 0); [reflexivity|]. now destruct (is_zero l).
Qed.
Lemma direction_size c d len : size (seg_direction c d len) = Rabs len * norm d.
Proof.
  unfold size, seg_direction. cbn [start_ end_]. rewrite dist_norm. apply norm_unique; [apply Rmult_le_pos; [apply Rabs_pos|apply norm_nonneg]|].
  replace (Rabs len * norm d * (Rabs len * norm d)) with ((Rabs len * Rabs len) * (norm d * norm d)) by ring. rewrite norm_sqr.
  replace (Rabs len * Rabs len) with (len * len) by (unfold Rabs; destruct (Rcase_abs _); ring). unfold psub, padd, times. cbn [fst snd]. field.
Qed.
Lemma built_truthful s : built s -> truthful s.
Proof.
  intros B. destruct B as [|a b|c d len L U|c h len L].
  - assert (Z : size seg_default = 0) by (apply size_zero; reflexivity). split; [|split]; unfold leads; rewrite Z; cbn [seg_default length_ inv_length_ heading_ start_ end_ fst snd].
    + intros l H. now injection H.
    + intros i H. injection H as <-. destruct (Req_EM_T 0 0); [reflexivity|lra].
    + intros h H. split; ring.
  - split; [|split]; cbn [seg_points length_ inv_length_ heading_]; discriminate.
  - assert (N : norm d = 1) by (apply norm_unique; lra). pose proof (direction_size c d len) as Z. rewrite N, Rabs_right in Z by lra.
    split; [|split]; cbn [seg_direction length_ inv_length_ heading_]; try discriminate. intros l H. injection H as <-. lra.
  - assert (N : norm (unit_from_angle h) = 1).
    { apply norm_unique; [lra|]. unfold unit_from_angle. cbn [fst snd]. pose proof (sin2_cos2 h) as P. unfold Rsqr in P. lra. }
    pose proof (direction_size c (unit_from_angle h) len) as Z. rewrite N, Rabs_right in Z by lra.
    assert (Z' : size (seg_heading c h len) = len) by (unfold seg_heading; unfold size in *; cbn [start_ end_]; lra).
    split; [|split]; unfold leads; rewrite Z'; cbn [seg_heading seg_direction length_ inv_length_ heading_ start_ end_]; try discriminate.
    + intros l H. now injection H.
    + intros h' H. injection H as <-. unfold padd, psub, times, unit_from_angle. cbn [fst snd]. split; field.
Qed.
Theorem histories : forall s cs, built s -> truthful (run_all s cs) /\ ends (run_all s cs) = fold_left (fun e c => effect c e) cs (ends s).
Proof.
  intros s cs B. apply built_truthful in B. unfold run_all. revert s B. induction cs as [|c cs IH]; intros s T; [now split|]. cbn [fold_left].
  destruct (run_spec s c T) as [T1 E1]. rewrite <- E1. now apply IH.
Qed.
Theorem values : forall s, truthful s ->
  fst (get_length s) = size s /\ fst (get_inv_length s) = (if Req_EM_T (size s) 0 then 0 else / size s) /\ get_sqr s = size s ^ 2 /\
  leads s (fst (get_heading s)) /\
  (let c := fst (get_trig s) in fst (end_ s) - fst (start_ s) = size s * fst c /\ snd (end_ s) - snd (start_ s) = size s * snd c /\ fst c * fst c + snd c * snd c = 1) /\
  (start_ s = end_ s -> fst (get_tangent s) = (0, 0) /\ fst (get_perp_unit s) = (0, 0)) /\
  (start_ s <> end_ s -> forall h, leads s h -> fst (get_tangent s) = (cos h, sin h) /\ fst (get_perp_unit s) = (- sin h, cos h)).
Proof.
  intros s T. destruct (get_length_spec s T) as (V & _ & E1). split; [exact V|]. split; [now apply get_inv_spec|]. split.
  { unfold get_sqr. destruct (length_ s) as [l|] eqn:E.
    - destruct T as (A & _). rewrite (A l E). ring.
    - unfold size. change (vsqr (psub (start_ s) (end_ s))) with (distance_sqr (end_ s) (start_ s)). now rewrite distance_sqr_dist, dist_sym. }
  split; [now apply get_heading_spec|]. split; [now apply trig_spec|].
  unfold get_tangent, get_perp_unit. destruct (get_length s) as [len s1]. cbn [fst snd] in *. destruct (ends_eq _ _ E1) as [Ea Eb]. subst len. split.
  - intros Z. apply size_zero in Z. rewrite (proj2 (is_zero_iff _) Z). now split.
  - intros N h [X Y]. assert (Z : size s <> 0) by (now rewrite size_zero). rewrite (proj2 (is_zero_false _) Z). cbn [fst]. rewrite Ea, Eb.
    unfold times, perp, psub. cbn [fst snd]. rewrite X, Y. split; f_equal; field; exact Z.
Qed.
(** ** The constructor from a direction *)
Theorem direction_exact : forall c d len,
  (truthful (seg_direction c d len) <-> len = 0 \/ (0 < len /\ fst d * fst d + snd d * snd d = 1)) /\
  fst (get_length (seg_direction c d len)) = len /\ size (seg_direction c d len) = Rabs len * dist d (0, 0).
Proof.
  intros c d len. pose proof (direction_size c d len) as Z. pose proof (norm_nonneg d) as N. pose proof (norm_sqr d) as Q.
  split; [|split; [reflexivity|rewrite Z, dist_norm; do 2 f_equal; unfold psub; destruct d; cbn; f_equal; ring]]. split.
  - intros (A & _). specialize (A len eq_refl). rewrite Z in A. destruct (Req_dec len 0) as [|H]; [now left|right].
    assert (P : 0 < len) by (pose proof (Rabs_pos len); pose proof (Rabs_pos_lt len H); nra). split; [exact P|]. rewrite Rabs_right in A by lra. rewrite <- Q.
    assert (norm d = 1) by nra. nra.
  - intros H. split; [|split]; cbn [seg_direction length_ inv_length_ heading_]; try discriminate. intros l Hl. injection Hl as <-. rewrite Z. destruct H as [-> | [P U]].
    + rewrite Rabs_R0. ring.
    + rewrite Rabs_right by lra. assert (norm d = 1) by (apply norm_unique; lra). nra.
Qed.
Theorem heading_turns : forall s h h', start_ s <> end_ s -> leads s h -> leads s h' -> whole_turns h' h.
Proof.
  intros s h h' N [A B] [C D]. assert (Z : size s <> 0) by (now rewrite size_zero).
  assert (Ec : cos h' = cos h) by (apply (Rmult_eq_reg_l (size s)); lra). assert (Es : sin h' = sin h) by (apply (Rmult_eq_reg_l (size s)); lra).
  assert (C1 : cos (h' - h) = 1) by (rewrite cos_minus, Ec, Es; pose proof (sin2_cos2 h) as P; unfold Rsqr in P; lra).
  assert (S1 : sin ((h' - h) / 2) = 0).
  { pose proof (cos_2a_sin ((h' - h) / 2)) as P. replace (2 * ((h' - h) / 2)) with (h' - h) in P by field. rewrite C1 in P.
    assert (sin ((h' - h) / 2) * sin ((h' - h) / 2) = 0) by lra. now apply Rmult_integral in H as [|]. }
  apply sin_eq_0_0 in S1. destruct S1 as (k & E). exists k. lra.
Qed.

(** ** Samples *)
Theorem sample_spec : forall s d, truthful s ->
  (d < 0 -> fst (sample s d) = Err CheckFailed) /\
  (0 <= d -> start_ s = end_ s -> fst (sample s d) = Ok (false, start_ s)) /\
  (0 <= d -> start_ s <> end_ s -> exists b p, fst (sample s d) = Ok (b, p) /\ (b = true <-> d < size s) /\
     p = between (start_ s) (end_ s) (d / size s) /\ dist (start_ s) p = d /\ (on s p <-> d <= size s)).
Proof.
  intros s d T. destruct (get_length_spec s T) as (V & _ & E1). pose proof (size_nonneg s) as P. unfold sample. split; [|split].
  - intros H. now rewrite (proj2 (rltb_iff _ _) H).
  - intros H Z. rewrite (proj2 (rltb_false _ _)) by lra. apply size_zero in Z. destruct (get_length s) as [l s1]. cbn [fst snd] in *. subst l.
    rewrite (proj2 (rltb_false _ _)) by lra. rewrite (proj2 (is_zero_iff _) Z). cbn [fst]. now destruct (ends_eq _ _ E1) as [-> _].
  - intros H N. rewrite (proj2 (rltb_false _ _)) by lra. assert (Z : size s <> 0) by (now rewrite size_zero). destruct (get_length s) as [l s1]. cbn [fst snd] in *. subst l.
    rewrite (proj2 (rltb_false _ _)) by lra. rewrite (proj2 (is_zero_false _) Z). cbn [fst]. destruct (ends_eq _ _ E1) as [-> _].
    assert (Sp : 0 < size s) by lra. assert (F : d / size s * size s = d) by (field; exact Z). assert (F0 : 0 <= d / size s) by (apply Rmult_le_pos; [exact H|left; now apply Rinv_0_lt_compat]).
    eexists. eexists. split; [reflexivity|]. rewrite rltb_iff, between_eq. split; [split; intros G; nra|]. split; [reflexivity|].
    assert (Ds : dist (start_ s) (between (start_ s) (end_ s) (d / size s)) = d) by (rewrite dist_between_l by exact F0; exact F). split; [exact Ds|]. split.
    + intros (t & Ht & Et). rewrite Et, dist_between_l in Ds by lra. fold (size s) in Ds. nra.
    + intros G. exists (d / size s). split; [split; [exact F0|nra]|reflexivity].
Qed.
Lemma sample_loop_spec a dp f : 0 < f -> forall n m, (1 <= INR (n + m) * f) -> (forall k, (k < n)%nat -> INR (k + m) * f < 1) ->
  forall fuel, (n < fuel)%nat -> sample_loop fuel a dp f (INR m * f) = Ok (map (fun k => padd a (times dp (INR (k + m) * f))) (seq 0 n)).
Proof.
  intros F n. induction n as [|n IH]; intros m L B fuel Fu; (destruct fuel as [|fuel]; [lia|]); cbn [sample_loop].
  - cbn [Nat.add] in L. rewrite (proj2 (rltb_false _ _)) by lra. reflexivity.
  - pose proof (B 0%nat ltac:(lia)) as B0. cbn [Nat.add] in B0. rewrite (proj2 (rltb_iff _ _)) by exact B0.
    replace (INR m * f + f) with (INR (S m) * f) by (rewrite S_INR; ring). rewrite (IH (S m)).
    + cbn [bind seq map Nat.add]. do 2 f_equal. rewrite <- seq_shift, map_map. apply map_ext. intros k. do 4 f_equal. lia.
    + now replace (n + S m)%nat with (S n + m)%nat by lia.
    + intros k K. replace (k + S m)%nat with (S k + m)%nat by lia. apply B. lia.
    + lia.
Qed.
Lemma count_exists x : 0 < x -> exists n, x <= INR n /\ (forall k, (k < n)%nat -> INR k < x) /\ (n <= Z.to_nat (up x))%nat.
Proof.
  intros P. destruct (archimed x) as [U1 U2]. assert (Up : (0 < up x)%Z) by (apply lt_IZR; lra).
  assert (Ex : x <= INR (Z.to_nat (up x))) by (rewrite INR_IZR_INZ, Z2Nat.id by lia; lra).
  revert Ex. generalize (Z.to_nat (up x)). induction n as [|n IH]; intros Ex.
  - cbn in Ex. lra.
  - destruct (Rle_dec x (INR n)) as [H|H].
    + destruct (IH H) as (m & A & B & C). exists m. split; [exact A|]. split; [exact B|lia].
    + exists (S n). split; [exact Ex|]. split; [|lia]. intros k K. assert (k <= n)%nat by lia. apply le_INR in H0. lra.
Qed.
Theorem sample_points_spec : forall a b d,
  (d <= 0 -> sample_points a b d = Err CheckFailed) /\
  (0 < d -> a = b -> sample_points a b d = Ok [a]) /\
  (0 < d -> a <> b -> exists n, dist a b <= INR n * d /\ (forall k, (k < n)%nat -> INR k * d < dist a b) /\
     sample_points a b d = Ok (map (fun k => between a b (INR k * d / dist a b)) (seq 0 n)) /\
     (forall k, (S k < n)%nat -> dist (between a b (INR k * d / dist a b)) (between a b (INR (S k) * d / dist a b)) = d) /\
     (forall k, (k < n)%nat -> on_segment a b (between a b (INR k * d / dist a b)) /\ between a b (INR k * d / dist a b) <> b) /\
     dist (between a b (INR (pred n) * d / dist a b)) b <= d).
Proof.
  intros a b d. unfold sample_points. assert (Nm : norm (psub b a) = dist a b) by (now rewrite <- dist_norm, dist_sym). split; [|split].
  - intros H. now rewrite (proj2 (rleb_iff _ _) H).
  - intros H E. rewrite (proj2 (rleb_false _ _) H). cbv zeta. rewrite Nm. apply dist_zero in E. now rewrite (proj2 (is_zero_iff _) E).
  - intros H N. rewrite (proj2 (rleb_false _ _) H). cbv zeta. rewrite Nm. assert (Z : dist a b <> 0) by (now rewrite dist_zero). rewrite (proj2 (is_zero_false _) Z).
    pose proof (dist_nonneg a b) as Dn. set (L := dist a b) in *. assert (Lp : 0 < L) by lra. assert (Li : 0 < / L) by (now apply Rinv_0_lt_compat).
    assert (Q : L / d * d = L) by (field; lra). assert (Qp : 0 < L / d) by (apply Rdiv_lt_0_compat; lra).
    destruct (count_exists (L / d) Qp) as (n & A & B & C). exists n. 
    assert (A' : L <= INR n * d) by nra. assert (B' : forall k, (k < n)%nat -> INR k * d < L) by (intros k K; specialize (B k K); nra).
    assert (Fr : forall k, INR k * (d / L) = INR k * d / L) by (intros k; field; lra).
    assert (In1 : forall k, (k < n)%nat -> 0 <= INR k * d / L < 1).
    { intros k K. specialize (B' k K). pose proof (pos_INR k). split; [apply Rmult_le_pos; [nra|lra]|]. apply (Rmult_lt_reg_r L); [exact Lp|].
      replace (INR k * d / L * L) with (INR k * d) by (field; lra). lra. }
    assert (Np : (0 < n)%nat). { destruct n; [|lia]. cbn in A. lra. }
    split; [exact A'|]. split; [exact B'|]. split.
    { replace 0 with (INR 0 * (d / L)) by (cbn; ring). rewrite (sample_loop_spec a (psub b a) (d / L)) with (n := n).
      - f_equal. apply map_ext. intros k. now rewrite between_eq, Nat.add_0_r, Fr.
      - apply Rdiv_lt_0_compat; lra.
      - rewrite Nat.add_0_r, Fr. apply (Rmult_le_reg_r L); [exact Lp|]. replace (INR n * d / L * L) with (INR n * d) by (field; lra). lra.
      - intros k K. rewrite Nat.add_0_r, Fr. now apply In1.
      - lia. }
    split.
    { intros k K. assert (Db : forall t u, dist (between a b t) (between a b u) = Rabs (t - u) * L).
      { intros t u. unfold L. rewrite !dist_norm. apply norm_unique; [apply Rmult_le_pos; [apply Rabs_pos|apply norm_nonneg]|].
        replace (Rabs (t - u) * norm (psub a b) * (Rabs (t - u) * norm (psub a b))) with ((Rabs (t - u) * Rabs (t - u)) * (norm (psub a b) * norm (psub a b))) by ring.
        rewrite norm_sqr. replace (Rabs (t - u) * Rabs (t - u)) with ((t - u) * (t - u)) by (unfold Rabs; destruct (Rcase_abs _); ring). unfold psub, between. cbn [fst snd]. ring. }
      rewrite Db, S_INR. replace (INR k * d / L - (INR k + 1) * d / L) with (- (d / L)) by (field; lra).
      rewrite Rabs_Ropp, Rabs_right by (apply Rle_ge; left; apply Rdiv_lt_0_compat; lra). field. lra. }
    split.
    { intros k K. destruct (In1 k K) as [I1 I2]. split; [exists (INR k * d / L); split; [lra|reflexivity]|]. intros Eb.
      assert (Dz : dist (between a b (INR k * d / L)) b = 0) by (rewrite Eb; now apply dist_zero). rewrite dist_between_r in Dz by lra. fold L in Dz. nra. }
    destruct (In1 (pred n) ltac:(lia)) as [I1 I2]. rewrite dist_between_r by lra. fold L.
    replace ((1 - INR (pred n) * d / L) * L) with (L - INR (pred n) * d) by (field; lra). replace n with (S (pred n)) in A' by lia. rewrite S_INR in A'. lra.
Qed.
