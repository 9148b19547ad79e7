(** From points back to pixels. *)
From Coq Require Import Reals Lra Psatz List Arith ZArith Lia Bool.
From Verif Require Import Base ResultLib GeomModel GeomBase FrameModel FrameSpec FrameProofs RangeImageModel RangeImageSpec RangeImageProofs.
From Verif Require Import LidModel LidSpec LidImages LidBeams.
Import ListNotations.
Open Scope R_scope.

(** ** Rounding *)
Lemma round_even_near x : Rabs (x - IZR (round_even x)) <= / 2.
Proof.
  pose proof (base_Int_part x) as [A B]. unfold round_even. set (f := Int_part x) in *. cbv zeta.
  destruct (rltb (x - IZR f) (/ 2)) eqn:L; [apply rltb_iff in L; apply Rabs_le; lra|]. apply rltb_false in L.
  destruct (rltb (/ 2) (x - IZR f)) eqn:G; [apply rltb_iff in G; rewrite plus_IZR; apply Rabs_le; lra|]. apply rltb_false in G.
  destruct (Z.even f); [apply Rabs_le; lra|]. rewrite plus_IZR. apply Rabs_le; lra.
Qed.
Lemma round_even_int z : round_even (IZR z) = z.
Proof.
  pose proof (round_even_near (IZR z)) as H. rewrite <- minus_IZR in H. destruct (Z.eq_dec (z - round_even (IZR z)) 0) as [E|E]; [lia|].
  exfalso. assert (1 <= Rabs (IZR (z - round_even (IZR z)))); [|lra]. rewrite <- abs_IZR. apply IZR_le. lia.
Qed.
Lemma Int_part_unique x z : IZR z <= x < IZR z + 1 -> Int_part x = z.
Proof.
  intros H. pose proof (base_Int_part x) as [A B]. assert (P : IZR (Int_part x) < IZR (z + 1)) by (rewrite plus_IZR; lra).
  assert (Q : IZR z < IZR (Int_part x + 1)) by (rewrite plus_IZR; lra). apply lt_IZR in P, Q. lia.
Qed.
Lemma round_even_tie z : round_even (IZR z + / 2) = if Z.even z then z else (z + 1)%Z.
Proof.
  unfold round_even. rewrite (Int_part_unique _ z) by lra. cbv zeta. replace (IZR z + / 2 - IZR z) with (/ 2) by ring.
  rewrite !(proj2 (rltb_false (/ 2) (/ 2))) by lra. reflexivity.
Qed.

(** ** The row *)
Lemma argmin_from_spec l : forall best bi i, (bi < i)%nat ->
  let k := argmin_from best bi i l in
  (k = bi /\ (forall j y, nth_error l j = Some y -> best <= y)) \/
  (exists j y, k = (i + j)%nat /\ nth_error l j = Some y /\ y < best /\ (forall j' z, nth_error l j' = Some z -> y <= z) /\
     forall j' z, (j' < j)%nat -> nth_error l j' = Some z -> y < z).
Proof.
  induction l as [|x l IH]; intros best bi i H; cbn [argmin_from].
  - left. split; [reflexivity | intros [|] y E; discriminate].
  - destruct (rltb x best) eqn:C.
    + apply rltb_iff in C. right. destruct (IH x i (S i) ltac:(lia)) as [[K A]|(j & y & K & N & L & A & B)].
      * exists 0%nat, x. split; [lia|]. split; [reflexivity|]. split; [exact C|]. split; [|intros j' z F; lia].
        intros [|j'] z E; cbn in E; [injection E as <-; lra | exact (A j' z E)].
      * exists (S j), y. split; [lia|]. split; [exact N|]. split; [lra|]. split.
        -- intros [|j'] z E; cbn in E; [injection E as <-; lra | exact (A j' z E)].
        -- intros [|j'] z F E; cbn in E; [injection E as <-; lra | apply (B j'); [lia | exact E]].
    + apply rltb_false in C. destruct (IH best bi (S i) ltac:(lia)) as [[K A]|(j & y & K & N & L & A & B)].
      * left. split; [exact K|]. intros [|j'] z E; cbn in E; [injection E as <-; lra | exact (A j' z E)].
      * right. exists (S j), y. split; [lia|]. split; [exact N|]. split; [lra|]. split.
        -- intros [|j'] z E; cbn in E; [injection E as <-; lra | exact (A j' z E)].
        -- intros [|j'] z F E; cbn in E; [injection E as <-; lra | apply (B j'); [lia | exact E]].
Qed.
Lemma first_closest_unique l x i j : first_closest l x i -> first_closest l x j -> i = j.
Proof.
  intros (y & Hy & A & B) (z & Hz & C & D). destruct (lt_eq_lt_dec i j) as [[L|E]|L]; [|exact E|].
  - specialize (D i y L Hy). specialize (A j z Hz). lra.
  - specialize (B j z L Hz). specialize (C i y Hy). lra.
Qed.
Theorem argmin_closest l x i : argmin (map (fun y => Rabs (x - y)) l) = Ok i <-> first_closest l x i.
Proof.
  assert (F : forall i, argmin (map (fun y => Rabs (x - y)) l) = Ok i -> first_closest l x i).
  { clear i. intros i. destruct l as [|y l]; cbn [map argmin]; [discriminate|]. intros E. apply Ok_inj in E. subst i.
    destruct (argmin_from_spec (map (fun y => Rabs (x - y)) l) (Rabs (x - y)) 0 1 ltac:(lia)) as [[-> A]|(j & v & -> & N & L & A & B)].
    - exists y. split; [reflexivity|]. split; [|intros j z H; lia].
      intros [|j] z E; cbn in E; [injection E as <-; lra|]. apply (A j). rewrite nth_error_map, E. reflexivity.
    - rewrite nth_error_map in N. destruct (nth_error l j) as [u|] eqn:U; [|discriminate]. cbn in N. injection N as <-.
      exists u. split; [exact U|]. split.
      + intros [|j'] z E; cbn in E; [injection E as <-; lra|]. apply (A j'). rewrite nth_error_map, E. reflexivity.
      + intros [|j'] z H E; cbn in E; [injection E as <-; exact L|]. apply (B j'); [lia|]. rewrite nth_error_map, E. reflexivity. }
  split; [apply F|]. intros C. destruct (argmin (map (fun y => Rabs (x - y)) l)) as [k|] eqn:E.
  - f_equal. exact (first_closest_unique l x k i (F k eq_refl) C).
  - destruct C as (y & Hy & _). destruct l; [destruct i; discriminate | discriminate].
Qed.
Lemma argmin_exists l x : l <> [] -> exists i, first_closest l x i.
Proof. intros N. destruct l as [|y l]; [congruence|]. eexists. apply argmin_closest. reflexivity. Qed.
Lemma first_closest_exact l i r : nth_error l r = Some i -> (forall j, (j < r)%nat -> nth_error l j <> Some i) -> first_closest l i r.
Proof.
  intros H U. exists i. split; [exact H|]. replace (i - i) with 0 by ring. rewrite Rabs_R0. split.
  - intros j z _. apply Rabs_pos.
  - intros j z L E. apply Rabs_pos_lt. intros Z. apply (U j L). rewrite E. f_equal. lra.
Qed.

(** ** The column *)
Lemma fold_range az : - (2 * PI) < az <= 2 * PI -> - PI <= LidModel.fold_azimuth az <= PI /\ exists k, az = LidModel.fold_azimuth az + IZR k * (2 * PI).
Proof.
  intros H. pose proof PI_RGT_0 as P. unfold LidModel.fold_azimuth. destruct (rltb PI az) eqn:A; destruct (rltb az (- PI)) eqn:B.
  - apply rltb_iff in A, B. lra.
  - apply rltb_iff in A. split; [lra|]. exists 1%Z. ring.
  - apply rltb_iff in B. split; [lra|]. exists (-1)%Z. ring.
  - apply rltb_false in A, B. split; [lra|]. exists 0%Z. ring.
Qed.
Definition column_of (w : nat) (az : R) : Z := round_even (INR w - 1 + / 2 - (az + PI) / (2 * PI) * INR w).
Lemma column_near w az : (0 < w)%nat -> Rabs (az - (PI - (2 * IZR (column_of w az) + 1) * PI / INR w)) <= PI / INR w.
Proof.
  intros W. pose proof PI_RGT_0 as P. assert (Wp : 0 < INR w) by (now apply lt_0_INR). unfold column_of.
  set (x := INR w - 1 + / 2 - (az + PI) / (2 * PI) * INR w). pose proof (round_even_near x) as N.
  replace (az - (PI - (2 * IZR (round_even x) + 1) * PI / INR w)) with (- (x - IZR (round_even x)) * (2 * PI / INR w)) by (unfold x; field; lra).
  rewrite Rabs_mult, Rabs_Ropp, (Rabs_right (2 * PI / INR w)) by (apply Rle_ge, Rlt_le, Rdiv_lt_0_compat; lra).
  replace (PI / INR w) with (/ 2 * (2 * PI / INR w)) by (field; lra). apply Rmult_le_compat_r; [|exact N]. apply Rlt_le, Rdiv_lt_0_compat; lra.
Qed.
Lemma column_bearing w c : (c < w)%nat -> column_of w (bearing w c) = Z.of_nat c.
Proof.
  intros H. pose proof PI_RGT_0 as P. assert (Wp : 0 < INR w) by (apply lt_0_INR; lia). unfold column_of, bearing.
  replace (INR w - 1 + / 2 - (PI - (2 * INR c + 1) * PI / INR w + PI) / (2 * PI) * INR w) with (INR c) by (field; lra).
  rewrite INR_IZR_INZ. apply round_even_int.
Qed.
Lemma column_range w az : (0 < w)%nat -> - PI <= az <= PI ->
  (0 <= column_of w az < Z.of_nat w)%Z <-> ~ (Nat.Even w /\ az = - PI).
Proof.
  intros W B. pose proof PI_RGT_0 as P. assert (Wp : 0 < INR w) by (apply lt_0_INR; lia).
  destruct (Req_dec az (- PI)) as [->|N].
  - unfold column_of. replace (INR w - 1 + / 2 - (- PI + PI) / (2 * PI) * INR w) with (IZR (Z.of_nat w - 1) + / 2) by (rewrite minus_IZR, <- INR_IZR_INZ; field; lra).
    rewrite round_even_tie. destruct (Z.even (Z.of_nat w - 1)) eqn:E.
    + split; [intros _ [V _]|lia]. destruct V as [k ->]. apply Z.even_spec in E. destruct E as [m E]. lia.
    + split; [lia|]. intros V. exfalso. apply V. split; [|reflexivity]. rewrite Z.even_sub in E. cbn in E.
      destruct (Z.even (Z.of_nat w)) eqn:F; [|discriminate]. apply Z.even_spec in F. destruct F as [m F]. exists (Z.to_nat m). lia.
  - split; [intros _ [_ V]; contradiction|]. intros _. unfold column_of. set (u := (az + PI) / (2 * PI) * INR w).
    assert (U : 0 < u <= INR w).
    { unfold u. split; [apply Rmult_lt_0_compat; [apply Rdiv_lt_0_compat; lra | lra]|]. rewrite <- (Rmult_1_l (INR w)) at 2.
      apply Rmult_le_compat_r; [lra|]. apply Rmult_le_reg_r with (2 * PI); [lra|]. unfold Rdiv. rewrite Rmult_assoc, Rinv_l by lra. lra. }
    set (x := INR w - 1 + / 2 - u). pose proof (round_even_near x) as M.
    assert (H2 : (round_even x < Z.of_nat w)%Z).
    { apply lt_IZR. rewrite <- INR_IZR_INZ. pose proof (Rle_abs (- (x - IZR (round_even x)))) as Q. rewrite Rabs_Ropp in Q. unfold x in *. lra. }
    split; [|exact H2]. destruct (Req_dec u (INR w)) as [E|E].
    + replace x with (IZR (-1) + / 2) by (unfold x; rewrite E; lra). rewrite round_even_tie. cbn. lia.
    + assert (H1 : (-1 < round_even x)%Z); [|lia]. apply lt_IZR. pose proof (Rle_abs (x - IZR (round_even x))) as Q. unfold x in *. lra.
Qed.

(** ** The pixel of a point *)
Lemma pixel_unfold e incl w p q : ~ singular (rotation e) -> sensed e p q ->
  pixel_of_point e incl w p =
  do row <- argmin (map (fun i => Rabs (atan2 (Z_ q) (sqrt (X q * X q + Y q * Y q)) - i)) incl);
  let column := column_of w (LidModel.fold_azimuth (atan2 (Y q) (X q) + az_correction e)) in
  if (0 <=? column)%Z && (column <? Z.of_nat w)%Z then Ok (Z.of_nat row, column, norm3 q) else Err ValueError.
Proof.
  intros N S. rewrite singular_iff in N. destruct (inverse_spec e N) as (v & V & V1 & V2). unfold pixel_of_point. rewrite V. cbn [bind]. cbv zeta.
  assert (E : apply v p = q) by (unfold sensed in S; rewrite <- S, world_apply; apply V1). rewrite E. reflexivity.
Qed.
Lemma sensed_exists e p : ~ singular (rotation e) -> exists q, sensed e p q.
Proof. intros N. rewrite singular_iff in N. destruct (inverse_spec e N) as (v & V & V1 & V2). exists (apply v p). unfold sensed. rewrite world_apply. apply V2. Qed.
Theorem pixel_singular e incl w p : singular (rotation e) -> pixel_of_point e incl w p = Err RuntimeError.
Proof. intros N. rewrite singular_iff in N. apply is_zero_true in N. unfold pixel_of_point, inverse. now rewrite N. Qed.
Theorem pixel_ok e incl w p q a b psi r c d : ~ singular (rotation e) -> (0 < w)%nat -> sensed e p q -> azimuth_of q a -> inclination_of q b -> facing e psi ->
  pixel_of_point e incl w p = Ok (r, c, d) ->
  exists r' c', r = Z.of_nat r' /\ c = Z.of_nat c' /\ (c' < w)%nat /\ first_closest incl b r' /\ in_column w (a + psi) c' /\ d * d = dot3 q q /\ 0 <= d.
Proof.
  intros N W S A B F E. rewrite (pixel_unfold e incl w p q N S) in E.
  assert (Ea : a = atan2 (Y q) (X q)) by exact (angle_unique _ _ _ _ A (atan2_angle _ _)).
  assert (Eb : b = atan2 (Z_ q) (sqrt (X q * X q + Y q * Y q))) by exact (angle_unique _ _ _ _ B (atan2_angle _ _)).
  assert (Ep : psi = az_correction e) by exact (angle_unique _ _ _ _ F (correction_angle e)).
  rewrite <- Ea, <- Eb, <- Ep in E. destruct (argmin _) as [r'|] eqn:G; [|discriminate]. cbn [bind] in E. apply argmin_closest in G. cbv zeta in E.
  set (f := LidModel.fold_azimuth (a + psi)) in *. destruct ((0 <=? column_of w f)%Z && (column_of w f <? Z.of_nat w)%Z) eqn:C; [|discriminate].
  apply andb_true_iff in C. destruct C as [C1 C2]. apply Z.leb_le in C1. apply Z.ltb_lt in C2. apply Ok_inj in E. injection E as <- <- <-.
  exists r', (Z.to_nat (column_of w f)). split; [reflexivity|]. split; [lia|]. split; [lia|]. split; [exact G|]. split.
  - destruct A as [Ra _], F as [Rp _]. destruct (fold_range (a + psi)) as [_ [k K]]; [lra|]. exists k. fold f in K.
    unfold bearing. replace (INR (Z.to_nat (column_of w f))) with (IZR (column_of w f)) by (rewrite INR_IZR_INZ, Z2Nat.id by lia; reflexivity).
    rewrite K. replace (f + IZR k * (2 * PI) - (PI - (2 * IZR (column_of w f) + 1) * PI / INR w) - IZR k * (2 * PI)) with (f - (PI - (2 * IZR (column_of w f) + 1) * PI / INR w)) by ring.
    now apply column_near.
  - unfold norm3. split; [|apply sqrt_pos]. apply sqrt_sqrt. unfold dot3. nra.
Qed.
Theorem pixel_defined e incl w p q a psi : ~ singular (rotation e) -> (0 < w)%nat -> incl <> [] -> sensed e p q -> azimuth_of q a -> facing e psi ->
  ((exists x, pixel_of_point e incl w p = Ok x) <-> ~ (Nat.Even w /\ a + psi = - PI)) /\
  (Nat.Even w -> a + psi = - PI -> pixel_of_point e incl w p = Err ValueError).
Proof.
  intros N W I S A F. rewrite (pixel_unfold e incl w p q N S).
  assert (Ea : a = atan2 (Y q) (X q)) by exact (angle_unique _ _ _ _ A (atan2_angle _ _)).
  assert (Ep : psi = az_correction e) by exact (angle_unique _ _ _ _ F (correction_angle e)).
  rewrite <- Ea, <- Ep. destruct (argmin_exists incl (atan2 (Z_ q) (sqrt (X q * X q + Y q * Y q))) I) as [r R]. apply argmin_closest in R. rewrite R. cbn [bind]. cbv zeta.
  destruct A as [Ra _], F as [Rp _]. pose proof PI_RGT_0 as P. destruct (fold_range (a + psi)) as [Rf [k K]]; [lra|]. pose proof (column_range w _ W Rf) as C.
  assert (Z : LidModel.fold_azimuth (a + psi) = - PI <-> a + psi = - PI).
  { split.
    - intros Q. rewrite Q in K. assert (H1 : IZR k < 2) by nra. assert (H2 : -1 < IZR k) by nra. apply lt_IZR in H1, H2.
      destruct (Z.eq_dec k 0) as [->|]; [lra|]. replace k with 1%Z in K by lia. exfalso.
      assert (T : a + psi = PI) by lra. rewrite T in Q. unfold LidModel.fold_azimuth in Q.
      rewrite (proj2 (rltb_false PI PI)), (proj2 (rltb_false PI (- PI))) in Q by lra. lra.
    - intros Q. rewrite Q. unfold LidModel.fold_azimuth. rewrite (proj2 (rltb_false PI (- PI))), (proj2 (rltb_false (- PI) (- PI))) by lra. ring. }
  rewrite Z in C. destruct ((0 <=? _)%Z && (_ <? Z.of_nat w)%Z) eqn:E.
  - apply andb_true_iff in E. destruct E as [E1 E2]. apply Z.leb_le in E1. apply Z.ltb_lt in E2. split; [split; [intros _; tauto | eauto] | intros; tauto].
  - apply andb_false_iff in E. rewrite Z.leb_gt, Z.ltb_ge in E. split; [|reflexivity]. split; [intros [x ?]; discriminate | intros H; apply C in H; lia].
Qed.

(** ** A point of a pixel comes back to its pixel *)
Lemma bearing_range w c : (c < w)%nat -> - PI < bearing w c < PI.
Proof.
  intros H. pose proof PI_RGT_0 as P. assert (Wp : 0 < INR w) by (apply lt_0_INR; lia). unfold bearing.
  pose proof (pos_INR c) as C0. assert (C1 : INR c + 1 <= INR w) by (rewrite <- S_INR; apply le_INR; lia).
  set (u := (2 * INR c + 1) / INR w). replace ((2 * INR c + 1) * PI / INR w) with (u * PI) by (unfold u; field; lra).
  assert (U1 : 0 < u) by (unfold u; apply Rdiv_lt_0_compat; lra).
  assert (U2 : u < 2) by (unfold u; apply Rmult_lt_reg_r with (INR w); [lra|]; unfold Rdiv; rewrite Rmult_assoc, Rinv_l by lra; lra).
  nra.
Qed.
Theorem beam_returns e psi incl w r c i x : proper (rotation e) -> mounted e psi -> (c < w)%nat -> 0 < x -> - (PI / 2) < i < PI / 2 ->
  nth_error incl r = Some i -> (forall j, (j < r)%nat -> nth_error incl j <> Some i) ->
  pixel_of_point e incl w (beam_end e psi w c i x) = Ok (Z.of_nat r, Z.of_nat c, x).
Proof.
  intros H M Hc Hx Hi Hr U. pose proof PI_RGT_0 as P. pose proof (proper_not_singular _ H) as N.
  rewrite (pixel_unfold e incl w _ (beam psi w c i x) N) by reflexivity.
  assert (Ci : 0 < cos i) by (apply cos_gt_0; lra).
  assert (Xq : X (beam psi w c i x) = (x * cos i) * cos (bearing w c - psi)) by (unfold beam, times, direction, X; cbn [fst snd]; ring).
  assert (Yq : Y (beam psi w c i x) = (x * cos i) * sin (bearing w c - psi)) by (unfold beam, times, direction, Y; cbn [fst snd]; ring).
  assert (Zq : Z_ (beam psi w c i x) = x * sin i) by reflexivity.
  assert (Nq : norm3 (beam psi w c i x) = x) by (unfold norm3; rewrite beam_norm; apply sqrt_square; lra).
  assert (K : 0 < x * cos i) by nra.
  assert (Sq : sqrt (X (beam psi w c i x) * X (beam psi w c i x) + Y (beam psi w c i x) * Y (beam psi w c i x)) = x * cos i).
  { rewrite Xq, Yq. transitivity (sqrt ((x * cos i) * (x * cos i))); [|apply sqrt_square; lra]. f_equal.
    transitivity ((x * cos i) * (x * cos i) * (cos (bearing w c - psi) * cos (bearing w c - psi) + sin (bearing w c - psi) * sin (bearing w c - psi))); [ring | rewrite cs1; ring]. }
  rewrite Sq, Zq, Nq. assert (Ei : atan2 (x * sin i) (x * cos i) = i).
  { apply (angle_unique (x * cos i) (x * sin i)); [apply atan2_angle|]. split; [lra|]. left. exists x. auto. }
  rewrite Ei. rewrite (proj2 (argmin_closest incl i r) (first_closest_exact incl i r Hr U)). cbn [bind]. cbv zeta.
  assert (Eb : LidModel.fold_azimuth (atan2 (Y (beam psi w c i x)) (X (beam psi w c i x)) + az_correction e) = bearing w c).
  { set (a := atan2 _ _). destruct (mounted_correction e psi M) as [Cp Sp].
    assert (A : cos a = cos (bearing w c - psi) /\ sin a = sin (bearing w c - psi)).
    { apply (angle_turn (X (beam psi w c i x)) (Y (beam psi w c i x))); [exists (x * cos i); auto | apply atan2_angle]. }
    destruct A as [Ca Sa]. pose proof (atan2_range (Y (beam psi w c i x)) (X (beam psi w c i x))) as Ra. fold a in Ra.
    destruct (correction_angle e) as [Rp _]. destruct (fold_range (a + az_correction e)) as [Rf [k Kk]]; [lra|].
    pose proof (bearing_range w c Hc) as Rb.
    assert (T : cos (a + az_correction e) = cos (bearing w c) /\ sin (a + az_correction e) = sin (bearing w c)).
    { rewrite cos_plus, sin_plus, Ca, Sa, Cp, Sp, <- cos_plus, <- sin_plus. replace (bearing w c - psi + psi) with (bearing w c) by ring. auto. }
    destruct T as [T1 T2]. rewrite Kk in T1, T2.
    assert (Pc : forall t, cos (t + IZR k * (2 * PI)) = cos t /\ sin (t + IZR k * (2 * PI)) = sin t).
    { intros t. destruct (Z_le_gt_dec 0 k) as [G|G].
      - replace (IZR k * (2 * PI)) with (2 * INR (Z.to_nat k) * PI) by (rewrite INR_IZR_INZ, Z2Nat.id by lia; ring). split; [apply cos_period | apply sin_period].
      - pose proof (cos_period (t + IZR k * (2 * PI)) (Z.to_nat (- k))) as C1. pose proof (sin_period (t + IZR k * (2 * PI)) (Z.to_nat (- k))) as S1.
        replace (t + IZR k * (2 * PI) + 2 * INR (Z.to_nat (- k)) * PI) with t in C1, S1 by (rewrite INR_IZR_INZ, Z2Nat.id, opp_IZR by lia; ring). auto. }
    destruct (Pc (LidModel.fold_azimuth (a + az_correction e))) as [P1 P2]. rewrite P1 in T1. rewrite P2 in T2. apply same_angle; auto. lra. }
  rewrite Eb, column_bearing by exact Hc. replace ((0 <=? Z.of_nat c)%Z && (Z.of_nat c <? Z.of_nat w)%Z) with true; [reflexivity|].
  symmetry. apply andb_true_iff. split; [apply Z.leb_le | apply Z.ltb_lt]; lia.
Qed.

(** ** Images *)
Lemma fold_min_least_r l : forall a, In (fold_left Rmin l a) (a :: l) /\ forall y, In y (a :: l) -> fold_left Rmin l a <= y.
Proof.
  induction l as [|b l IH]; intros a; cbn [fold_left].
  - split; [now left|]. intros y [->|[]]. lra.
  - destruct (IH (Rmin a b)) as [I L]. split.
    + destruct I as [I|I]; [|right; now right]. unfold Rmin in *. destruct (Rle_dec a b); [left | right; left]; exact I.
    + intros y [->|[->|Hy]].
      * apply Rle_trans with (Rmin y b); [apply L; now left | apply Rmin_l].
      * apply Rle_trans with (Rmin a y); [apply L; now left | apply Rmin_r].
      * apply L. now right.
Qed.
Lemma in_at_pixel {V} (index : list (Z * Z)) (value : list V) rc v : In v (at_pixel index value rc) <-> In (rc, v) (combine index value).
Proof.
  unfold at_pixel. rewrite in_map_iff. split.
  - intros ([i u] & <- & H). apply filter_In in H. destruct H as [H E]. cbn [fst snd] in *. apply andb_true_iff in E. destruct E as [E1 E2].
    apply Z.eqb_eq in E1, E2. destruct i as [r c], rc as [r' c']. cbn [fst snd] in *. now subst.
  - intros H. exists (rc, v). split; [reflexivity|]. apply filter_In. split; [exact H|]. cbn [fst snd]. now rewrite !Z.eqb_refl.
Qed.
Lemma combine_split {A B} (l : list (A * B)) : combine (map fst l) (map snd l) = l.
Proof. induction l as [|[a b] l IH]; cbn; congruence. Qed.
Lemma pixel_inside e incl w p r c d : pixel_of_point e incl w p = Ok (r, c, d) -> in_image (Z.of_nat (length incl)) (Z.of_nat w) (r, c).
Proof.
  unfold pixel_of_point. destruct (inverse e) as [v|]; [|discriminate]. cbn [bind]. cbv zeta.
  destruct (argmin _) as [k|] eqn:G; [|discriminate]. cbn [bind]. destruct ((0 <=? _)%Z && (_ <? Z.of_nat w)%Z) eqn:E; [|discriminate].
  intros F. apply Ok_inj in F. injection F as <- <- <-. apply andb_true_iff in E. destruct E as [E1 E2]. apply Z.leb_le in E1. apply Z.ltb_lt in E2.
  apply argmin_closest in G. destruct G as (y & Hy & _). assert (k < length incl)%nat by (apply nth_error_Some; congruence).
  split; cbn [fst snd]; lia.
Qed.
Theorem build_ok points n e incl w pixels : (0 < w)%nat -> mapM (pixel_of_point e incl w) points = Ok pixels ->
  exists im, build_range_image points n e incl w = Ok im /\ length im = (length incl * w)%nat /\
    forall r c, (r < length incl)%nat -> (c < w)%nat -> exists x, nth_error im (r * w + c) = Some x /\
      nearest_or_zero (firstn n pixels) (Z.of_nat r, Z.of_nat c) x.
Proof.
  intros W E. unfold build_range_image. rewrite E. cbn [bind]. cbv zeta.
  destruct (scatter_pixels 0 Rplus pool_minr (Z.of_nat (length incl)) (Z.of_nat w) (map fst (firstn n pixels)) (map snd (firstn n pixels))) as (im & S & L & P).
  - intros v. ring.
  - lia.
  - lia.
  - now rewrite !map_length.
  - apply Forall_forall. intros rc H. apply in_map_iff in H. destruct H as ([[r c] d] & <- & H).
    assert (Hin : In (r, c, d) pixels) by (rewrite <- (firstn_skipn n pixels); apply in_or_app; now left).
    clear -E Hin. revert pixels E Hin. induction points as [|p points IH]; cbn [mapM]; intros pixels E H; [apply Ok_inj in E; subst pixels; destruct H|].
    destruct (pixel_of_point e incl w p) as [t|] eqn:T; [|discriminate]. cbn [bind] in E. destruct (mapM _ points) as [s|]; [|discriminate]. cbn [bind] in E.
    apply Ok_inj in E. subst pixels. destruct H as [->|H]; [exact (pixel_inside _ _ _ _ _ _ _ T) | exact (IH s eq_refl H)].
  - exists im. split; [exact S|]. split; [lia|]. intros r c Hr Hc. specialize (P (Z.of_nat r) (Z.of_nat c)).
    replace (Z.to_nat (Z.of_nat r * Z.of_nat w + Z.of_nat c)) with (r * w + c)%nat in P by lia.
    exists (nth (r * w + c) im 0). split; [apply nth_error_nth'; rewrite L; nia|]. rewrite P by (split; cbn [fst snd]; lia). clear P.
    assert (A : forall v, In v (at_pixel (map fst (firstn n pixels)) (map snd (firstn n pixels)) (Z.of_nat r, Z.of_nat c)) <-> In ((Z.of_nat r, Z.of_nat c), v) (firstn n pixels)).
    { intros v. rewrite in_at_pixel, combine_split. tauto. }
    destruct (at_pixel _ _ _) as [|a l] eqn:Q.
    + left. split; [reflexivity|]. intros d H. apply A in H. destruct H.
    + right. cbn [pool_minr]. destruct (fold_min_least_r l a) as [I M]. split; [now apply A|]. intros d H. apply M. now apply A.
Qed.
Theorem image_returns ri e incl w pts points n : proper (rotation e) -> rectangle w ri -> (0 < w)%nat -> NoDup incl ->
  (forall i, In i incl -> - (PI / 2) < i < PI / 2) ->
  extract_point_cloud ri e incl None None = Ok pts -> gather pts (where_positive ri) = Ok points -> (length points <= n)%nat ->
  exists im, build_range_image points n e incl w = Ok im /\ length im = (length incl * w)%nat /\
    forall r c x, pixel_at ri r c = Some x -> nth_error im (r * w + c) = Some (Rmax x 0).
Proof.
  intros H W Wp D I E G Ln. pose proof (mounted_exists e) as M. destruct (extract_plain ri e incl None w _ W M) as [P _]. destruct (P pts E) as (L & S & Q). clear P.
  apply gather_ok in G.
  assert (K : forall r c x, pixel_at ri r c = Some x -> exists i, nth_error incl r = Some i /\ (c < w)%nat /\ (r < length incl)%nat).
  { intros r c x Hx. unfold pixel_at in Hx. destruct (nth_error ri r) as [row|] eqn:Hr; [|discriminate].
    assert (Lr : (r < length ri)%nat) by (apply nth_error_Some; congruence).
    assert (Lw : length row = w) by exact (proj1 (Forall_forall _ _) W row (nth_error_In _ _ Hr)).
    assert (Lc : (c < w)%nat) by (rewrite <- Lw; apply nth_error_Some; congruence).
    destruct (nth_error incl r) as [i|] eqn:Hi; [exists i; split; [reflexivity|]; lia|]. apply nth_error_None in Hi. lia. }
  assert (B : forall r c x, pixel_at ri r c = Some x -> 0 < x -> exists p, pixel_at pts r c = Some p /\ pixel_of_point e incl w p = Ok (Z.of_nat r, Z.of_nat c, x)).
  { intros r c x Hx Px. destruct (K r c x Hx) as (i & Hi & Hc & Hr). exists (beam_end e (az_correction e) w c i x). split; [exact (Q r c x i Hi Hx)|].
    apply beam_returns; auto.
    - apply I. exact (nth_error_In _ _ Hi).
    - intros j Lj F. rewrite NoDup_nth_error in D. rewrite <- F in Hi. apply D in Hi; [lia | exact Hr]. }
  assert (Z : exists pixels, mapM (pixel_of_point e incl w) points = Ok pixels /\ length pixels = length points /\
     forall r c d, In (r, c, d) pixels <-> exists r' c', r = Z.of_nat r' /\ c = Z.of_nat c' /\ In (r', c') (where_positive ri) /\ pixel_at ri r' c' = Some d).
  { assert (Hh : forall r c, In (r, c) (where_positive ri) -> hit ri r c) by (intros r c; apply where_in).
    clear -G B Hh. revert G Hh. generalize (where_positive ri) as l. intros l G. induction G as [|[r0 c0] p l points Hp G IH]; intros Hh.
    - exists []. split; [reflexivity|]. split; [reflexivity|]. intros r c d. split; [intros [] | intros (r' & c' & _ & _ & [] & _)].
    - destruct IH as (pixels & E & Ll & F); [intros r c Hin; apply Hh; now right|]. destruct (Hh r0 c0 (or_introl eq_refl)) as (x & Hx & Px).
      destruct (B r0 c0 x Hx Px) as (p' & Hp' & Ep). cbn [fst snd] in Hp. replace p' with p in * by congruence.
      exists ((Z.of_nat r0, Z.of_nat c0, x) :: pixels). split; [cbn [mapM]; rewrite Ep; cbn [bind]; now rewrite E|]. split; [cbn; lia|].
      intros r c d. split.
      + intros [T|T]; [injection T as <- <- <-; exists r0, c0; repeat split; auto; now left|].
        apply F in T. destruct T as (r' & c' & -> & -> & T1 & T2). exists r', c'. repeat split; auto. now right.
      + intros (r' & c' & -> & -> & [T|T] & T2); [injection T as <- <-; left; congruence|]. right. apply F. exists r', c'. auto. }
  destruct Z as (pixels & Z & Lp & F). destruct (build_ok points n e incl w pixels Wp Z) as (im & Im & Li & N). exists im. split; [exact Im|]. split; [exact Li|].
  intros r c x Hx. destruct (K r c x Hx) as (i & Hi & Hc & Hr). destruct (N r c Hr Hc) as (v & Hv & Nv). rewrite Hv. f_equal.
  rewrite firstn_all2 in Nv by lia. destruct (Rle_or_lt x 0) as [L0|L0].
  - rewrite Rmax_right by exact L0. destruct Nv as [[-> _]|[Hin _]]; [reflexivity|]. exfalso. apply F in Hin. destruct Hin as (r' & c' & E1 & E2 & T & T').
    apply Nat2Z.inj in E1, E2. subst r' c'. apply where_in in T. destruct T as (y & Hy & Py). replace y with x in Py by congruence. lra.
  - rewrite Rmax_left by lra. assert (Hin : In (Z.of_nat r, Z.of_nat c, x) pixels).
    { apply F. exists r, c. repeat split; auto. apply where_in. now exists x. }
    destruct Nv as [[_ A]|[A _]]; [destruct (A x Hin)|]. apply F in A. destruct A as (r' & c' & E1 & E2 & T & T').
    apply Nat2Z.inj in E1, E2. subst r' c'. congruence.
Qed.
