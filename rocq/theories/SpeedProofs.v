(** Proofs about the estimation of speeds. *)
From Coq Require Import Lia Lqa.
From Verif Require Import Base ResultLib CutoffModel BreakdownModel SpeedModel SpeedSpec.
Open Scope list_scope.
Open Scope Z_scope.

Lemma Qlt_bool_spec a b : if Qlt_bool a b then (a < b)%Q else (b <= a)%Q.
Proof.
  unfold Qlt_bool. destruct (Qle_bool b a) eqn:E; cbn [negb]; [apply Qle_bool_iff; exact E|].
  destruct (Qlt_le_dec a b) as [L|L]; [exact L|]. apply Qle_bool_iff in L. congruence.
Qed.

(** [i] is the first least position of [l]. *)
Definition first_least (l : list Q) (i : nat) : Prop :=
  (i < length l)%nat /\ (forall j, (j < i)%nat -> (nth i l 0 < nth j l 0)%Q) /\ (forall j, (j < length l)%nat -> (nth i l 0 <= nth j l 0)%Q).

Lemma argmin_from_spec rest : forall pre i, pre <> [] -> first_least pre i -> first_least (pre ++ rest) (argmin_from (pre ++ rest) i (length pre) rest).
Proof.
  induction rest as [|x rest IH]; intros pre i NE (L & B & A); cbn [argmin_from].
  - rewrite app_nil_r. split; [exact L|split; assumption].
  - assert (E : pre ++ x :: rest = (pre ++ [x]) ++ rest) by (rewrite <- app_assoc; reflexivity). rewrite E.
    assert (SL : S (length pre) = length (pre ++ [x])) by (rewrite app_length; cbn; lia). rewrite SL.
    assert (NP : forall j, (j < length pre)%nat -> nth j (pre ++ [x]) 0%Q = nth j pre 0%Q) by (intros j J; apply app_nth1; exact J).
    assert (NX : nth (length pre) (pre ++ [x]) 0%Q = x) by (rewrite app_nth2, Nat.sub_diag by lia; reflexivity).
    apply IH; [destruct pre; discriminate|].
    replace (nth i ((pre ++ [x]) ++ rest) 0%Q) with (nth i pre 0%Q) by (rewrite <- app_assoc, app_nth1 by lia; reflexivity).
    pose proof (Qlt_bool_spec x (nth i pre 0%Q)) as D. destruct (Qlt_bool x (nth i pre 0%Q)).
    + split; [lia|]. rewrite NX. split.
      * intros j J. rewrite NP by exact J. specialize (A j J). lra.
      * intros j J. rewrite <- SL in J. destruct (Nat.eq_dec j (length pre)) as [->|N]; [rewrite NX; lra|].
        rewrite NP by lia. specialize (A j ltac:(lia)). lra.
    + split; [lia|]. rewrite (NP i L). split.
      * intros j J. rewrite NP by lia. apply B. exact J.
      * intros j J. rewrite <- SL in J. destruct (Nat.eq_dec j (length pre)) as [->|N]; [rewrite NX; exact D|]. rewrite NP by lia. apply A. lia.
Qed.

Lemma argmin_spec l : (l = [] /\ argmin l = Err CheckFailed) \/ exists i, argmin l = Ok i /\ first_least l i.
Proof.
  destruct l as [|x l]; [left; split; reflexivity|]. right. cbn [argmin]. eexists. split; [reflexivity|].
  apply (argmin_from_spec l [x] 0); [discriminate|]. split; [cbn; lia|]. split; [intros j J; lia|]. intros j J. cbn in J.
  assert (j = 0)%nat as -> by lia. cbn. lra.
Qed.

Lemma value_declared o : declared o (value_or_zero o).
Proof. destruct o as [q|]; [left; reflexivity|right; split; reflexivity]. Qed.

Lemma estimate_one_spec root gts p : gts <> [] -> exists q, estimate_one root gts p = Ok q /\ estimated root gts p q.
Proof.
  intros NE. unfold estimate_one. destruct (argmin_spec (map (distance root p) gts)) as [[E _]|(i & E & L & B & A)].
  - destruct gts; [congruence|discriminate].
  - rewrite E. cbn [bind]. rewrite map_length in L, A.
    destruct (nth_error gts i) as [g|] eqn:G; [|apply nth_error_None in G; lia].
    eexists. split; [reflexivity|]. right. exists g, (value_or_zero (speed_x g)), (value_or_zero (speed_y g)).
    split; [|split; [apply value_declared|split; [apply value_declared|repeat split]]].
    destruct (nth_error_split gts i G) as (before & after & EG & LB). exists before, after. split; [exact EG|].
    assert (N : forall j h, nth_error gts j = Some h -> nth j (map (distance root p) gts) 0%Q = distance root p h).
    { intros j h H. apply nth_error_nth. rewrite nth_error_map, H. reflexivity. }
    rewrite (N i g G) in *. split.
    + intros h I. apply In_nth_error in I. destruct I as (j & J). assert (LJ : (j < length before)%nat) by (apply nth_error_Some; congruence).
      specialize (B j ltac:(lia)). rewrite (N j h) in B; [exact B|]. rewrite EG, nth_error_app1 by exact LJ. exact J.
    + intros h I. assert (I2 : In h gts) by (rewrite EG, in_app_iff; right; right; exact I).
      apply In_nth_error in I2. destruct I2 as (j & J). assert (LJ : (j < length gts)%nat) by (apply nth_error_Some; congruence).
      specialize (A j LJ). rewrite (N j h J) in A. exact A.
Qed.

Lemma mapM_all {A B} (f : A -> result B) (P : A -> B -> Prop) l : (forall x, In x l -> exists y, f x = Ok y /\ P x y) -> exists ys, mapM f l = Ok ys /\ Forall2 P l ys.
Proof.
  induction l as [|x l IH]; intros H; [exists []; split; [reflexivity|constructor]|].
  destruct (H x (or_introl eq_refl)) as (y & E & Q). destruct IH as (ys & M & F); [intros z I; apply H; right; exact I|].
  exists (y :: ys). cbn [mapM]. rewrite E. cbn [bind]. rewrite M. split; [reflexivity|constructor; assumption].
Qed.

(** Every prediction gets the speed of its nearest ground truth. *)
Theorem estimate_spec root pds gts : exists qs, estimate root pds gts = Ok qs /\ Forall2 (estimated root gts) pds qs.
Proof.
  unfold estimate. destruct gts as [|g gts].
  - eexists. split; [reflexivity|]. induction pds as [|p pds IH]; constructor; [|exact IH]. left. split; [reflexivity|repeat split].
  - apply mapM_all. intros p _. apply estimate_one_spec. discriminate.
Qed.

(** The nearest ground truth is determined by its position. *)
Theorem nearest_unique root p gts g h : nearest root p gts g -> nearest root p gts h -> g = h.
Proof.
  intros (b & a & E & B & A) (b' & a' & E' & B' & A'). subst gts.
  assert (X : forall (b b' a a' : list entry) g h, b ++ g :: a = b' ++ h :: a' -> (b = b' /\ g = h) \/ In g b' \/ In h b).
  { clear. induction b as [|x b IH]; intros b' a a' g h E; destruct b' as [|y b']; cbn [app] in E; injection E as E1 E2.
    - left. split; [reflexivity|exact E1].
    - right. left. left. symmetry. exact E1.
    - right. right. left. exact E1.
    - subst y. destruct (IH b' a a' g h E2) as [[-> ->]|[I|I]]; [left; auto|right; left; right; exact I|right; right; right; exact I]. }
  destruct (X b b' a a' g h E') as [[_ G]|[I|I]]; [exact G| |].
  - exfalso. assert (J : In h (b ++ g :: a)) by (rewrite E', in_app_iff; right; left; reflexivity).
    assert (D : (apart root p g <= apart root p h)%Q).
    { apply in_app_iff in J. destruct J as [J|[J|J]]; [specialize (B h J); lra|subst; lra|apply A; exact J]. }
    specialize (B' g I). lra.
  - exfalso. assert (J : In g (b' ++ h :: a')) by (rewrite <- E', in_app_iff; right; left; reflexivity).
    assert (D : (apart root p h <= apart root p g)%Q).
    { apply in_app_iff in J. destruct J as [J|[J|J]]; [specialize (B' g J); lra|subst; lra|apply A'; exact J]. }
    specialize (B h I). lra.
Qed.

(** Frame by frame, if there are as many frames of both. *)
Theorem frames_spec root pds gts :
  (length pds <> length gts -> estimate_frames root pds gts = Err CheckFailed)
  /\ (length pds = length gts -> exists qss, estimate_frames root pds gts = Ok qss
      /\ length qss = length pds /\ forall i ps gs, nth_error pds i = Some ps -> nth_error gts i = Some gs ->
           exists qs, nth_error qss i = Some qs /\ Forall2 (estimated root gs) ps qs).
Proof.
  unfold estimate_frames. split; intros L.
  - apply Nat.eqb_neq in L. rewrite L. reflexivity.
  - apply Nat.eqb_eq in L as L2. rewrite L2. cbn [negb].
    destruct (mapM_all (fun pg => estimate root (fst pg) (snd pg)) (fun pg qs => Forall2 (estimated root (snd pg)) (fst pg) qs) (combine pds gts)) as (qss & M & F).
    { intros pg _. apply estimate_spec. }
    exists qss. split; [exact M|]. clear M L2. revert gts qss L F. induction pds as [|p pds IH]; intros [|g gts] qss L F; try discriminate.
    + inversion F; subst. split; [reflexivity|]. intros [|i] ps gs H; discriminate.
    + cbn [combine] in F. inversion F as [|? q ? qs Q F']; subst. injection L as L. destruct (IH gts qs L F') as [LQ N].
      split; [cbn [length]; rewrite LQ; reflexivity|]. intros [|i] ps gs; cbn [nth_error].
      * intros H1 H2. injection H1 as <-. injection H2 as <-. exists q. split; [reflexivity|exact Q].
      * apply N.
Qed.

Lemma velocity_iff c : has_velocity_breakdown c = true <-> by_velocity c.
Proof.
  unfold has_velocity_breakdown, by_velocity. rewrite existsb_exists. split.
  - intros (g & I & H). destruct g; try discriminate. exact I.
  - intros I. exists VELOCITY. split; [exact I|reflexivity].
Qed.
Lemma missing_iff {A} (o : option A) : missing o = true <-> o = None.
Proof. destruct o; cbn; split; congruence. Qed.

(** Detection: the predictions are measured with estimated speeds exactly when there is a velocity breakdown and the first has no
    acceleration; otherwise as they were given. *)
Theorem detection_decided root c pds gts :
  let estimating := by_velocity c /\ exists first rest, pds = first :: rest /\ accel_x first = None in
  (estimating -> exists qs, detection_predictions root c pds gts = Ok qs /\ Forall2 (estimated root gts) pds qs)
  /\ (~ estimating -> detection_predictions root c pds gts = Ok pds).
Proof.
  intros est. unfold detection_predictions. split.
  - intros (V & first & rest & E & H). apply velocity_iff in V. apply missing_iff in H. rewrite V. subst pds. rewrite H. apply estimate_spec.
  - intros N. destruct pds as [|first rest]; [reflexivity|]. destruct (has_velocity_breakdown c) eqn:V; [|reflexivity].
    destruct (missing (accel_x first)) eqn:M; [|reflexivity]. exfalso. apply N. split; [apply velocity_iff; exact V|].
    exists first, rest. split; [reflexivity|apply missing_iff; exact M].
Qed.

(** Tracking: the first prediction of the first frame decides, by its speed. *)
Theorem tracking_decided root c pds gts :
  let estimating := by_velocity c /\ exists first rest frames, pds = (first :: rest) :: frames /\ speed_x first = None in
  (length pds <> length gts -> tracking_predictions root c pds gts = Err CheckFailed)
  /\ (length pds = length gts -> estimating -> exists qss, tracking_predictions root c pds gts = Ok qss
      /\ length qss = length pds /\ forall i ps gs, nth_error pds i = Some ps -> nth_error gts i = Some gs ->
           exists qs, nth_error qss i = Some qs /\ Forall2 (estimated root gs) ps qs)
  /\ (length pds = length gts -> ~ estimating -> tracking_predictions root c pds gts = Ok pds).
Proof.
  intros est. unfold tracking_predictions. split; [|split].
  - intros L. apply Nat.eqb_neq in L. rewrite L. reflexivity.
  - intros L (V & first & rest & frames & E & H). apply Nat.eqb_eq in L as L2. rewrite L2. cbn [negb].
    assert (X : need_to_estimate_speed c pds = true).
    { rewrite E. cbn [need_to_estimate_speed]. apply andb_true_intro. split; [apply velocity_iff; exact V|apply missing_iff; exact H]. }
    rewrite X. apply frames_spec. exact L.
  - intros L N. apply Nat.eqb_eq in L. rewrite L. cbn [negb].
    destruct (need_to_estimate_speed c pds) eqn:X; [|reflexivity]. exfalso. apply N. destruct pds as [|[|first rest] frames]; try discriminate.
    cbn [need_to_estimate_speed] in X. apply andb_prop in X. split; [apply velocity_iff; tauto|]. exists first, rest, frames.
    split; [reflexivity|apply missing_iff; tauto].
Qed.

(** An estimated prediction is put in the velocity class of the ground truth it took the speed from, if they have the same type. *)
Theorem same_class root gts p q g : estimated root gts p q -> nearest root p gts g -> typ (body p) = typ (body g) -> has_speed g ->
  shard VELOCITY (seen q) = shard VELOCITY (seen g).
Proof.
  intros [[E _]|(h & x & y & N & DX & DY & W)] NG T [SX SY].
  - subst gts. destruct NG as (b & a & E & _). destruct b; discriminate.
  - assert (h = g) as -> by (apply (nearest_unique root p gts); assumption).
    destruct W as (B & _ & WX & WY). destruct DX as [DX|[DX _]]; [|congruence]. destruct DY as [DY|[DY _]]; [|congruence].
    unfold shard, seen. cbn [typ speed]. rewrite B, T, WX, WY, DX, DY. reflexivity.
Qed.

(** ** Witnesses *)
Definition thing (x : Q) (sx sy ax : option Q) : entry :=
  {| body := {| typ := TYPE_VEHICLE; cx := x; cy := 0; cz := 0; len := 4; wid := 2; hei := 2; speed := None; camera_name := None;
                most_visible := None; bearing := 0; score := 1 |}; speed_x := sx; speed_y := sy; accel_x := ax |}.
Definition velocity_config : config := {| generators := [VELOCITY]; difficulties := [[]]; cutoffs := [] |}.

(** Detection: a speed that was declared is replaced by that of the nearest ground truth. *)
Theorem overwritten_refuted : exists root c pds gts qs p q, by_velocity c /\ (forall e, In e pds -> has_speed e) /\ detection_predictions root c pds gts = Ok qs
  /\ nth_error pds 0 = Some p /\ nth_error qs 0 = Some q /\ shard VELOCITY (seen p) = Ok 4 /\ shard VELOCITY (seen q) = Ok 0.
Proof.
  exists (fun x => x), velocity_config, [thing 0 (Some 20%Q) (Some 0%Q) None], [thing 5 (Some 0%Q) (Some 0%Q) None]. do 3 eexists.
  split; [left; reflexivity|]. split; [intros e [<-|[]]; split; discriminate|]. repeat split; vm_compute; reflexivity.
Qed.
(** Detection: with an acceleration and no speed nothing is estimated, and the prediction counts as stationary. *)
Theorem unestimated_refuted : exists root c pds gts p g, by_velocity c /\ detection_predictions root c pds gts = Ok pds
  /\ In p pds /\ ~ has_speed p /\ nearest root p gts g /\ shard VELOCITY (seen p) = Ok 0 /\ shard VELOCITY (seen g) = Ok 4.
Proof.
  exists (fun x => x), velocity_config, [thing 0 None None (Some 1%Q)], [thing 0 (Some 20%Q) (Some 0%Q) None], (thing 0 None None (Some 1%Q)), (thing 0 (Some 20%Q) (Some 0%Q) None).
  split; [left; reflexivity|]. split; [reflexivity|]. split; [left; reflexivity|]. split; [intros [H _]; apply H; reflexivity|].
  split; [exists [], []; split; [reflexivity|split; intros h []]|]. split; vm_compute; reflexivity.
Qed.
(** Tracking: a first frame without predictions leaves the predictions of all other frames without speed. *)
Theorem empty_frame root c pds gts : length pds = length gts -> pds <> [] ->
  (forall p ps, In ps pds -> In p ps -> speed_x p = None) ->
  tracking_predictions root c ([] :: pds) ([] :: gts) = Ok ([] :: pds)
  /\ forall p ps t, In ps pds -> In p ps -> typ (body p) = t -> t <> TYPE_UNKNOWN -> shard VELOCITY (seen p) = Ok (5 * (type_num t - 1)).
Proof.
  intros L _ N. split.
  - unfold tracking_predictions. cbn [length]. rewrite L, Nat.eqb_refl. reflexivity.
  - intros p ps t I J T NU. unfold shard, seen. cbn [typ speed]. rewrite T, (N p ps I J). destruct t; [congruence|reflexivity..].
Qed.
(** Tracking: the speeds of the other predictions do not matter. *)
Theorem first_only_refuted : exists root c ps gs qs p q, by_velocity c /\ tracking_predictions root c [ps] [gs] = Ok [qs]
  /\ nth_error ps 1 = Some p /\ nth_error qs 1 = Some q /\ has_speed p /\ shard VELOCITY (seen p) = Ok 4 /\ shard VELOCITY (seen q) = Ok 0.
Proof.
  exists (fun x => x), velocity_config, [thing 9 None None None; thing 0 (Some 20%Q) (Some 0%Q) None], [thing 5 (Some 0%Q) (Some 0%Q) None]. do 3 eexists.
  split; [left; reflexivity|]. repeat split; try discriminate; vm_compute; reflexivity.
Qed.

(** What the breakdowns see. *)
Theorem seen_object e : sees e (seen e).
Proof.
  split; [|repeat split]. intros x y. unfold seen. cbn [speed]. destruct (speed_x e) as [a|], (speed_y e) as [b|]; (split; [intros H|intros (H1 & H2)]); try discriminate; try congruence.
  injection H as -> ->. auto.
Qed.
