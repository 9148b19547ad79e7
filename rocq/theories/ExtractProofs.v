(** Proofs about the extraction of box labels. *)
From Coq Require Import String Ascii FinFun.
From Verif Require Import Base ResultLib ExtractModel ExtractSpec.
Open Scope list_scope.
Open Scope Z_scope.

(** ** Boxes *)
Ltac defaults := change (@or_default (list nat) (@nil nat)) with text_of in *; change (@or_default text (@nil nat)) with text_of in *;
  change (@or_default Z 0) with num_of in *.

Lemma box3d_spec b r : get_box3d b = Ok r <-> same_box3 b r.
Proof.
  unfold get_box3d, same_box3. destruct b as [x y z l w h t]; cbn [center_x center_y center_z length_ width height heading].
  destruct r as [[cx cy cz] [sx sy sz] a]; cbn [center3 size3 heading3 x3 y3 z3].
  destruct x, y, z, l, w, h, t; cbn; split; try discriminate; try (intros (?&?&?&?&?&?&?); discriminate).
  - intros [= -> -> -> -> -> -> ->]. repeat split.
  - intros (E1&E2&E3&E4&E5&E6&E7). congruence.
Qed.
Lemma box3d_err b e : get_box3d b = Err e -> e = AssertionError.
Proof. unfold get_box3d. destruct b as [[] [] [] [] [] [] []]; cbn; congruence. Qed.
Lemma box2_spec b r : get_box_axis_aligned_2d b = Ok r <-> same_box2 b r.
Proof.
  unfold get_box_axis_aligned_2d, same_box2. destruct b as [x y z l w h t]; cbn [center_x center_y center_z length_ width height heading].
  destruct r as [[cx cy] [sx sy]]; cbn [center2 size2 x2 y2].
  destruct x, y, z, l, w, h, t; cbn; split; try discriminate; try (intros (?&?&?&?&?&?&?); discriminate).
  - intros [= -> -> -> ->]. repeat split.
  - intros (E1&E2&E3&E4&E5&E6&E7). congruence.
Qed.
Lemma box2_err b e : get_box_axis_aligned_2d b = Err e -> e = AssertionError.
Proof. unfold get_box_axis_aligned_2d. destruct b as [[] [] [] [] [] [] []]; cbn; congruence. Qed.

Lemma metadata_err l p e : get_metadata_vector l p = Err e -> e = AssertionError.
Proof.
  unfold get_metadata_vector. destruct (l_metadata l) as [m|]; [|discriminate].
  destruct (field_x p m), (field_y p m); cbn; congruence.
Qed.
Lemma motion_spec l s a :
  (get_metadata_vector l Speed = Ok s /\ get_metadata_vector l Accel = Ok a) <-> same_motion (l_metadata l) s a.
Proof.
  unfold get_metadata_vector, same_motion, same_vector. destruct (l_metadata l) as [[a1 a2 a3 a4 a5 a6]|]; cbn [field_x field_y field_z
    speed_x speed_y speed_z accel_x accel_y accel_z].
  - split.
    + destruct a1, a2, a4, a5; cbn; intros [E1 E2]; try discriminate.
      injection E1 as <-. injection E2 as <-. do 2 eexists. split; [reflexivity|]. split; [reflexivity|].
      cbn. repeat split; [now destruct a3|now destruct a6].
    + intros (u & v & -> & -> & (-> & -> & E3) & (-> & -> & E6)). cbn.
      destruct u as [u1 u2 u3], v as [v1 v2 v3]; cbn in *. subst. split; [now destruct a3|now destruct a6].
  - split; [intros [E1 E2]; split; congruence|intros [-> ->]; auto].
Qed.
Lemma difficulty_spec l d : get_difficulty l = d <-> same_difficulty (l_detection l) (l_tracking l) d.
Proof. unfold get_difficulty, same_difficulty. destruct (l_detection l), (l_tracking l); cbn; split; congruence. Qed.

Lemma laser_key_spec f l k : laser_key_of f l = k <-> key_laser f l k.
Proof.
  unfold laser_key_of, key_laser. destruct k as [a b c]; cbn [lk_segment lk_time lk_object].
  defaults. split; [intros [= -> -> ->]; auto|intros (-> & -> & ->); reflexivity].
Qed.

(** ** Names of cameras *)
Lemma camera_value_spec n v : camera_value n = Ok v <-> camera n v.
Proof.
  unfold camera_value, camera_names, find, fst, text_eqb. split.
  - repeat (match goal with |- context [list_eq_dec ?d ?a ?b] => destruct (list_eq_dec d a b) as [<-|] end;
      [cbn [snd]; intros [= <-]; constructor|]). discriminate.
  - intros C. destruct C; reflexivity.
Qed.
Lemma camera_value_err n e : camera_value n = Err e -> e = KeyError.
Proof. unfold camera_value. destruct find; congruence. Qed.
Lemma camera_value_none n : (forall v, ~ camera n v) -> camera_value n = Err KeyError.
Proof.
  intros H. destruct (camera_value n) as [v|e] eqn:E.
  - exfalso. apply (H v). now apply camera_value_spec.
  - f_equal. now apply camera_value_err in E.
Qed.
Lemma camera_functional n v w : camera n v -> camera n w -> v = w.
Proof. intros A B. apply camera_value_spec in A, B. congruence. Qed.
Lemma camera_injective n m v : camera n v -> camera m v -> n = m.
Proof. intros A B. destruct A; inversion B; reflexivity. Qed.
Lemma camera_not_nil n v : camera n v -> n <> [].
Proof. intros A. destruct A; discriminate. Qed.

(** ** One label *)
Theorem lidar_box_ok f l r :
  extract_lidar_box f l = Ok r <-> (has_box l = false /\ r = []) \/ (exists c, r = [c] /\ is_lidar_box f l c).
Proof.
  unfold extract_lidar_box, has_box, is_lidar_box. destruct (l_box l) as [b|] eqn:B.
  2: { split; [intros [= <-]; left; auto|intros [[_ ->]|(c & -> & (b & E & _) & _)]; [reflexivity|discriminate]]. }
  split.
  - destruct (get_box3d b) as [x|] eqn:E1; cbn [bind]; [|discriminate].
    destruct (get_metadata_vector l Speed) as [s|] eqn:E2; cbn [bind]; [|discriminate].
    destruct (get_metadata_vector l Accel) as [a|] eqn:E3; cbn [bind]; [|discriminate].
    intros [= <-]. right. eexists. split; [reflexivity|]. cbn.
    split; [exists b; split; [reflexivity|now apply box3d_spec]|].
    split; [now apply laser_key_spec|]. defaults. split; [reflexivity|].
    split; [apply motion_spec; auto|]. split; [reflexivity|]. split; [reflexivity|now apply difficulty_spec].
  - intros [[E _]|(c & -> & (b' & E & SB) & K & T & M & P & TP & D)]; [discriminate|]. injection E as <-.
    apply box3d_spec in SB. apply motion_spec in M as [M1 M2]. apply difficulty_spec in D. apply laser_key_spec in K.
    rewrite SB, M1, M2. cbn [bind]. defaults. rewrite D, K, <- T, <- P, <- TP. now destruct c.
Qed.
Theorem lidar_box_err f l e :
  extract_lidar_box f l = Err e <-> e = AssertionError /\ has_box l = true /\ (forall c, ~ is_lidar_box f l c).
Proof.
  split.
  - intros E. split.
    + revert E. unfold extract_lidar_box. destruct (l_box l); [|discriminate].
      destruct (get_box3d b) eqn:E1; cbn [bind]; [|intros [= <-]; eapply box3d_err; eauto].
      destruct (get_metadata_vector l Speed) eqn:E2; cbn [bind]; [|intros [= <-]; eapply metadata_err; eauto].
      destruct (get_metadata_vector l Accel) eqn:E3; cbn [bind]; [discriminate|intros [= <-]; eapply metadata_err; eauto].
    + split.
      * destruct (has_box l) eqn:H; [reflexivity|].
        assert (X : extract_lidar_box f l = Ok []) by (apply lidar_box_ok; auto). congruence.
      * intros c H. assert (X : extract_lidar_box f l = Ok [c]) by (apply lidar_box_ok; right; eauto). congruence.
  - intros (-> & H & N). destruct (extract_lidar_box f l) as [r|e] eqn:E.
    + exfalso. apply lidar_box_ok in E. destruct E as [[E _]|(c & _ & E)]; [congruence|]. eapply N; eauto.
    + f_equal. revert E. unfold extract_lidar_box. destruct (l_box l); [|discriminate].
      destruct (get_box3d b) eqn:E1; cbn [bind]; [|intros [= <-]; eapply box3d_err; eauto].
      destruct (get_metadata_vector l Speed) eqn:E2; cbn [bind]; [|intros [= <-]; eapply metadata_err; eauto].
      destruct (get_metadata_vector l Accel) eqn:E3; cbn [bind]; [discriminate|intros [= <-]; eapply metadata_err; eauto].
Qed.
(** When a label has a component, said with the fields. *)
Theorem lidar_box_exists f l :
  (exists c, is_lidar_box f l c) <->
  (exists b, l_box l = Some b /\ center_x b <> None /\ center_y b <> None /\ center_z b <> None /\ length_ b <> None /\
     width b <> None /\ height b <> None /\ heading b <> None) /\
  (forall m, l_metadata l = Some m -> speed_x m <> None /\ speed_y m <> None /\ accel_x m <> None /\ accel_y m <> None).
Proof.
  split.
  - intros (c & (b & B & S) & _ & _ & M & _). split.
    + exists b. split; [exact B|]. unfold same_box3 in S. repeat split; intuition congruence.
    + intros m E. rewrite E in M. destruct M as (s & a & _ & _ & (A1 & A2 & _) & (A3 & A4 & _)). repeat split; congruence.
  - intros [(b & B & X) M].
    destruct (extract_lidar_box f l) as [r|e] eqn:E.
    + apply lidar_box_ok in E. destruct E as [[E _]|(c & _ & E)]; [|eauto]. unfold has_box in E. rewrite B in E. discriminate.
    + exfalso. revert E. unfold extract_lidar_box, get_metadata_vector. rewrite B. unfold get_box3d.
      destruct X as (X1 & X2 & X3 & X4 & X5 & X6 & X7).
      destruct (center_x b), (center_y b), (center_z b), (length_ b), (width b), (height b), (heading b); try congruence. cbn.
      destruct (l_metadata l) as [m|]; [|discriminate]. cbn.
      destruct (M m eq_refl) as (Y1 & Y2 & Y3 & Y4).
      destruct (speed_x m), (speed_y m), (accel_x m), (accel_y m); try congruence. cbn. discriminate.
Qed.

Theorem synced_box_ok f l r :
  extract_synced_box f l = Ok r <-> (has_synced_box l = false /\ r = []) \/ (exists c, r = [c] /\ is_synced_box f l c).
Proof.
  unfold extract_synced_box, has_synced_box, is_synced_box. split.
  - destruct (l_camera l) as [[|n ns]|]; cbn [text_of].
    + intros [= <-]. auto.
    + destruct (l_synced l) as [b|]; [|intros [= <-]; auto].
      destruct (camera_value (n :: ns)) as [v|] eqn:C; cbn [bind]; [|discriminate].
      destruct (get_box3d b) as [x|] eqn:E; cbn [bind]; [|discriminate].
      intros [= <-]. right. eexists. split; [reflexivity|]. cbn. split; [exists b; split; [reflexivity|now apply box3d_spec]|].
      split; [now apply laser_key_spec|]. exists (n :: ns). split; [reflexivity|now apply camera_value_spec].
    + intros [= <-]. auto.
  - intros [[H ->]|(c & -> & (b & B & S) & K & name & N & C)].
    + destruct (l_camera l) as [[|n ns]|]; cbn; try reflexivity. destruct (l_synced l); [discriminate|reflexivity].
    + rewrite N. cbn [text_of]. destruct name as [|n ns]; [now apply camera_not_nil in C|].
      rewrite B. apply camera_value_spec in C. rewrite C. cbn [bind]. apply box3d_spec in S. rewrite S. cbn [bind].
      apply laser_key_spec in K. rewrite K. now destruct c.
Qed.
Theorem synced_box_err f l e :
  extract_synced_box f l = Err e <->
  exists name b, l_camera l = Some name /\ name <> [] /\ l_synced l = Some b /\
    ((e = KeyError /\ forall v, ~ camera name v) \/
     (e = AssertionError /\ (exists v, camera name v) /\ forall r, ~ same_box3 b r)).
Proof.
  unfold extract_synced_box. split.
  - destruct (l_camera l) as [[|n ns]|]; cbn [text_of]; try discriminate.
    destruct (l_synced l) as [b|]; [|discriminate]. intros E. exists (n :: ns), b. split; [reflexivity|]. split; [discriminate|].
    split; [reflexivity|]. revert E.
    destruct (camera_value (n :: ns)) as [v|] eqn:C; cbn [bind].
    + destruct (get_box3d b) as [x|] eqn:E; cbn [bind]; [discriminate|]. intros [= <-]. right. split; [eapply box3d_err; eauto|].
      split; [exists v; now apply camera_value_spec|]. intros r S. apply box3d_spec in S. congruence.
    + intros [= <-]. left. split; [eapply camera_value_err; eauto|]. intros v V. apply camera_value_spec in V. congruence.
  - intros (name & b & N & NE & B & X). rewrite N. cbn [text_of]. destruct name as [|n ns]; [congruence|]. rewrite B.
    destruct X as [[-> X]|(-> & (v & V) & X)].
    + rewrite camera_value_none by exact X. reflexivity.
    + apply camera_value_spec in V. rewrite V. cbn [bind]. destruct (get_box3d b) as [x|] eqn:E; cbn [bind].
      * exfalso. apply (X x). now apply box3d_spec.
      * f_equal. now apply box3d_err in E.
Qed.

(** ** The id of a projected box *)
Lemma skipn_S_tail {A} n (l : list A) s r : skipn n l = s :: r -> skipn (S n) l = r.
Proof.
  revert l. induction n as [|n IH]; intros [|a l]; cbn [skipn]; try discriminate.
  - intros [= -> ->]. reflexivity.
  - intros E. rewrite <- (IH _ E). reflexivity.
Qed.
Theorem parse_ok id a v : parse_lidar_object_id id = Ok (a, v) <-> projected_id id a v.
Proof.
  unfold parse_lidar_object_id, projected_id. split.
  - destruct (camera_value (skipn 23 id)) as [w|] eqn:C; cbn [bind]; [|discriminate].
    remember (firstn 22 id) as pre eqn:PRE. intros [= -> ->]. subst a.
    apply camera_value_spec in C.
    assert (L : (23 < List.length id)%nat).
    { destruct (Nat.lt_ge_cases 23 (List.length id)) as [|G]; [assumption|]. apply camera_not_nil in C. exfalso. apply C. now apply skipn_all2. }
    destruct (skipn 22 id) as [|s rest] eqn:K.
    { assert (H : (List.length (skipn 22 id) = 0)%nat) by now rewrite K. rewrite skipn_length in H. lia. }
    assert (R : skipn 23 id = rest).
    { eapply skipn_S_tail. exact K. }
    exists s, rest. split; [|split].
    + rewrite <- K. symmetry. apply firstn_skipn.
    + rewrite firstn_length. lia.
    + now rewrite <- R.
  - intros (s & name & -> & L & C). rewrite skipn_app, firstn_app, L. rewrite !skipn_all2 by lia.
    replace (23 - 22)%nat with 1%nat by reflexivity. rewrite Nat.sub_diag. change (firstn 0 (s :: name)) with (@nil nat). cbn [skipn app].
    apply camera_value_spec in C. rewrite app_nil_r, firstn_all2 by lia. rewrite C. reflexivity.
Qed.
Lemma parse_err id e : parse_lidar_object_id id = Err e -> e = KeyError.
Proof.
  unfold parse_lidar_object_id. destruct (camera_value (skipn 23 id)) eqn:C; cbn [bind]; [discriminate|].
  intros [= <-]. now apply camera_value_err in C.
Qed.

(** No name of a camera ends with an underscore and the name of a camera, or is a proper end of another name. *)
Lemma camera_no_suffix x n m v w : camera n v -> camera m w -> n = x ++ underscore :: m -> False.
Proof.
  intros A B E. assert (S : skipn (List.length n - S (List.length m)) n = underscore :: m).
  { subst n. rewrite app_length. cbn [List.length]. replace (List.length x + S (List.length m) - S (List.length m))%nat with (List.length x) by lia.
    rewrite skipn_app, skipn_all, Nat.sub_diag. reflexivity. }
  clear E. destruct A, B; vm_compute in S; discriminate.
Qed.
Lemma camera_no_drop k n m v w : camera n v -> camera m w -> (0 < k)%nat -> skipn k n = m -> False.
Proof.
  intros A B K E. assert (L : (List.length m = List.length n - k)%nat) by (rewrite <- E; apply skipn_length).
  assert (L2 : (List.length m <> 0)%nat) by (destruct B; discriminate).
  assert (L3 : (k <= 11)%nat) by (assert (List.length n <= 11)%nat by (destruct A; vm_compute; lia); lia).
  clear L L2. destruct k as [|k]; [lia|]. clear K.
  do 11 (destruct k as [|k]; [destruct A, B; vm_compute in E; discriminate|]). lia.
Qed.
Theorem parse_documented a name v :
  camera name v ->
  parse_lidar_object_id (a ++ underscore :: name) = (if (List.length a =? 22)%nat then Ok (a, v) else Err KeyError).
Proof.
  intros C. destruct (Nat.eqb_spec (List.length a) 22) as [L|L].
  - apply parse_ok. exists underscore, name. auto.
  - destruct (parse_lidar_object_id (a ++ underscore :: name)) as [[b w]|e] eqn:E; [|f_equal; now apply parse_err in E].
    exfalso. apply parse_ok in E as (s & m & E & L2 & M).
    destruct (Nat.lt_ge_cases (List.length a) 22) as [G|G].
    + assert (K : skipn 23 (a ++ underscore :: name) = m).
      { rewrite E, skipn_app, L2, skipn_all2 by lia. reflexivity. }
      rewrite skipn_app, skipn_all2 in K by lia. cbn [app] in K.
      replace (23 - List.length a)%nat with (S (22 - List.length a)) in K by lia. cbn [skipn] in K.
      assert (P : (0 < 22 - List.length a)%nat) by lia. exact (camera_no_drop _ _ _ _ _ C M P K).
    + assert (K : skipn 23 (a ++ underscore :: name) = m).
      { rewrite E, skipn_app, L2, skipn_all2 by lia. reflexivity. }
      rewrite skipn_app in K. replace (23 - List.length a)%nat with 0%nat in K by lia. cbn [skipn] in K.
      eapply camera_no_suffix; [exact M|exact C|symmetry; exact K].
Qed.

Theorem projected_box_ok f c l r :
  extract_projected_box f c l = Ok r <-> (has_box l = false /\ r = []) \/ (exists p, r = [p] /\ is_projected_box f l p).
Proof.
  unfold extract_projected_box, has_box, is_projected_box. destruct (l_box l) as [b|] eqn:B.
  2: { split; [intros [= <-]; left; auto|intros [[_ ->]|(p & -> & (b & E & _) & _)]; [reflexivity|discriminate]]. }
  defaults. split.
  - destruct (parse_lidar_object_id (text_of (l_id l))) as [[a v]|] eqn:P; cbn [bind]; [|discriminate].
    destruct (get_box_axis_aligned_2d b) as [x|] eqn:E; cbn [bind]; [|discriminate].
    intros [= <-]. right. eexists. split; [reflexivity|]. cbn.
    split; [exists b; split; [reflexivity|now apply box2_spec]|]. repeat split. now apply parse_ok.
  - intros [[E _]|(p & -> & (b' & E & SB) & K1 & K2 & ID & T)]; [discriminate|]. injection E as <-.
    apply box2_spec in SB. apply parse_ok in ID. rewrite ID, SB. cbn [bind]. rewrite <- K1, <- K2, <- T.
    destruct p as [[? ? ? ?] ? ?]. reflexivity.
Qed.
Theorem projected_box_err f c l e :
  extract_projected_box f c l = Err e <->
  exists b, l_box l = Some b /\
    ((e = KeyError /\ forall a v, ~ projected_id (id_of l) a v) \/
     (e = AssertionError /\ (exists a v, projected_id (id_of l) a v) /\ forall r, ~ same_box2 b r)).
Proof.
  unfold extract_projected_box, id_of. defaults. split.
  - destruct (l_box l) as [b|]; [|discriminate]. intros E. exists b. split; [reflexivity|]. revert E.
    destruct (parse_lidar_object_id (text_of (l_id l))) as [[a v]|] eqn:P; cbn [bind].
    + destruct (get_box_axis_aligned_2d b) as [x|] eqn:E; cbn [bind]; [discriminate|]. intros [= <-]. right.
      split; [eapply box2_err; eauto|]. split; [exists a, v; now apply parse_ok|]. intros r S. apply box2_spec in S. congruence.
    + intros [= <-]. left. split; [eapply parse_err; eauto|]. intros a v V. apply parse_ok in V. congruence.
  - intros (b & -> & [[-> X]|(-> & (a & v & V) & X)]).
    + destruct (parse_lidar_object_id (text_of (l_id l))) as [[a v]|] eqn:P; cbn [bind].
      * exfalso. apply (X a v). now apply parse_ok.
      * f_equal. now apply parse_err in P.
    + apply parse_ok in V. rewrite V. cbn [bind]. destruct (get_box_axis_aligned_2d b) as [x|] eqn:E; cbn [bind].
      * exfalso. apply (X x). now apply box2_spec.
      * f_equal. now apply box2_err in E.
Qed.

Theorem camera_box_ok f c l r :
  extract_camera_box f c l = Ok r <-> (has_box l = false /\ r = []) \/ (exists p, r = [p] /\ is_camera_box f (cl_name c, l) p).
Proof.
  unfold extract_camera_box, has_box, is_camera_box. cbn [fst snd]. destruct (l_box l) as [b|] eqn:B.
  2: { split; [intros [= <-]; left; auto|intros [[_ ->]|(p & -> & (b & E & _) & _)]; [reflexivity|discriminate]]. }
  defaults. split.
  - destruct (get_box_axis_aligned_2d b) as [x|] eqn:E; cbn [bind]; [|discriminate].
    intros [= <-]. right. eexists. split; [reflexivity|]. cbn.
    split; [exists b; split; [reflexivity|now apply box2_spec]|]. repeat split. now apply difficulty_spec.
  - intros [[E _]|(p & -> & (b' & E & SB) & K1 & K2 & K3 & K4 & T & D)]; [discriminate|]. injection E as <-.
    apply box2_spec in SB. rewrite SB. cbn [bind]. apply difficulty_spec in D. rewrite D, <- K1, <- K2, <- K3, <- K4, <- T.
    destruct p as [[? ? ? ?] ? ? ?]. reflexivity.
Qed.
Theorem camera_box_err f c l e :
  extract_camera_box f c l = Err e <-> e = AssertionError /\ exists b, l_box l = Some b /\ forall r, ~ same_box2 b r.
Proof.
  unfold extract_camera_box. split.
  - destruct (l_box l) as [b|]; [|discriminate]. destruct (get_box_axis_aligned_2d b) as [x|] eqn:E; cbn [bind]; [discriminate|].
    intros [= <-]. split; [eapply box2_err; eauto|]. exists b. split; [reflexivity|]. intros r S. apply box2_spec in S. congruence.
  - intros (-> & b & -> & X). destruct (get_box_axis_aligned_2d b) as [x|] eqn:E; cbn [bind].
    + exfalso. apply (X x). now apply box2_spec.
    + f_equal. now apply box2_err in E.
Qed.

Theorem association_ok f c l r :
  extract_association f c l = Ok r <-> (has_association l = false /\ r = []) \/ (exists k, r = [k] /\ is_association f (cl_name c, l) k).
Proof.
  unfold extract_association, has_association, is_association. cbn [fst snd]. destruct (l_association l) as [a|] eqn:A.
  2: { split; [intros [= <-]; left; auto|intros [[_ ->]|(p & -> & (b & E & _) & _)]; [reflexivity|discriminate]]. }
  defaults. split.
  - intros [= <-]. right. eexists. split; [reflexivity|]. cbn. split; [eauto|]. auto.
  - intros [[E _]|(k & -> & (a' & E & L) & K1 & K2 & K3 & K4)]; [discriminate|]. injection E as <-.
    rewrite <- K1, <- K2, <- K3, <- K4, <- L. now destruct k.
Qed.
Lemma association_total f c l : exists r, extract_association f c l = Ok r.
Proof. unfold extract_association. destruct (l_association l); eauto. Qed.

(** ** All the labels of a frame *)
Section Over.
  Context {S C : Type} (extract : S -> result (list C)) (keep : S -> bool) (is : S -> C -> Prop).
  Hypothesis H : forall s r, extract s = Ok r <-> (keep s = false /\ r = []) \/ (exists c, r = [c] /\ is s c).
  Hypothesis HK : forall s c, is s c -> keep s = true.
  Lemma over_ok l r : over_labels extract l = Ok r <-> Forall2 is (filter keep l) r.
  Proof using H HK.
    unfold over_labels. revert r. induction l as [|s l IH]; intros r; cbn [mapM filter bind].
    - cbn [bind concat]. split; [intros [= <-]; constructor|]. intros F. inversion F. reflexivity.
    - assert (E : (do parts <- (do b <- extract s; do bs <- mapM extract l; Ok (b :: bs)); Ok (concat parts)) =
                  (do b <- extract s; do q <- (do parts <- mapM extract l; Ok (concat parts)); Ok (b ++ q))).
      { destruct (extract s); cbn [bind]; [|reflexivity]. destruct (mapM extract l); reflexivity. }
      rewrite E. clear E. split.
      + destruct (extract s) as [b|] eqn:E; cbn [bind]; [|discriminate].
        destruct (do parts <- mapM extract l; Ok (concat parts)) as [q|] eqn:Q; cbn [bind]; [|discriminate].
        intros [= <-]. apply H in E. destruct E as [[K ->]|(c & -> & I)].
        * rewrite K. cbn [app]. apply IH. reflexivity.
        * rewrite (HK _ _ I). cbn [app]. constructor; [exact I|]. apply IH. reflexivity.
      + destruct (keep s) eqn:K; intros F.
        * inversion F as [|x c y q I F' E1 E2]; subst. assert (X : extract s = Ok [c]) by (apply H; right; eauto).
          rewrite X. cbn [bind]. apply IH in F'. rewrite F'. reflexivity.
        * assert (X : extract s = Ok []) by (apply H; auto). rewrite X. cbn [bind]. apply IH in F. rewrite F. reflexivity.
  Qed.
  Lemma over_err l e : over_labels extract l = Err e <->
    exists before s after, l = before ++ s :: after /\ (forall b, In b before -> exists r, extract b = Ok r) /\ extract s = Err e.
  Proof using.
    clear H HK. unfold over_labels. induction l as [|s l IH]; cbn [mapM bind].
    - split; [discriminate|]. intros ([|x y] & ? & ? & E & _); discriminate.
    - split.
      + destruct (extract s) as [b|e1] eqn:E; cbn [bind].
        * destruct (mapM extract l) as [q|e2] eqn:Q; cbn [bind] in *; [discriminate|]. intros [= <-].
          destruct IH as [IH _]. destruct (IH eq_refl) as (be & t & af & -> & B & X). exists (s :: be), t, af. split; [reflexivity|].
          split; [|exact X]. intros d [<-|D]; eauto.
        * intros [= <-]. exists [], s, l. repeat split; [|exact E]. intros ? [].
      + intros (be & t & af & E & B & X). destruct be as [|b0 be]; injection E as -> ->.
        * rewrite X. reflexivity.
        * destruct (B b0 (or_introl eq_refl)) as [r ->]. cbn [bind]. destruct IH as [_ IH].
          assert (G : (do parts <- mapM extract (be ++ t :: af); Ok (concat parts)) = Err e).
          { apply IH. exists be, t, af. repeat split; [|exact X]. intros d D. apply B. now right. }
          destruct (mapM extract (be ++ t :: af)); cbn [bind] in *; [discriminate|congruence].
  Qed.
End Over.

Lemma filter_map {A B} (g : A -> B) p l : filter p (map g l) = map g (filter (fun a => p (g a)) l).
Proof. induction l as [|a l IH]; cbn; [reflexivity|]. rewrite IH. now destruct (p (g a)). Qed.
Lemma sources_labels cs : map (fun s => (cl_name (fst s), snd s)) (label_sources cs) = labels_of cs.
Proof.
  unfold label_sources, labels_of. induction cs as [|c cs IH]; cbn; [reflexivity|]. rewrite map_app, map_map, IH. reflexivity.
Qed.
Lemma Forall2_map_l {A B C} (g : A -> B) (P : B -> C -> Prop) l r : Forall2 P (map g l) r <-> Forall2 (fun a => P (g a)) l r.
Proof.
  revert r. induction l as [|a l IH]; intros r; cbn; split; intros F; inversion F; subst; constructor; auto; now apply IH.
Qed.

Theorem lidar_boxes f r : all_lidar_boxes f = Ok r <-> Forall2 (is_lidar_box f) (filter has_box (f_laser_labels f)) r.
Proof.
  unfold all_lidar_boxes. apply over_ok; [intros; apply lidar_box_ok|].
  intros s c ((b & B & _) & _). unfold has_box. now rewrite B.
Qed.
Theorem synced_boxes f r : all_synced_boxes f = Ok r <-> Forall2 (is_synced_box f) (filter has_synced_box (f_laser_labels f)) r.
Proof.
  unfold all_synced_boxes. apply over_ok; [intros; apply synced_box_ok|].
  intros s c ((b & B & _) & _ & name & N & C). unfold has_synced_box. rewrite B, N. destruct name; [now apply camera_not_nil in C|reflexivity].
Qed.
Theorem projected_boxes f r :
  all_projected_boxes f = Ok r <-> Forall2 (is_projected_box f) (filter has_box (map snd (labels_of (f_projected f)))) r.
Proof.
  unfold all_projected_boxes. rewrite <- sources_labels, map_map, filter_map, Forall2_map_l. cbn [snd].
  apply over_ok; [intros; apply projected_box_ok|].
  intros s c ((b & B & _) & _). unfold has_box. now rewrite B.
Qed.
Theorem camera_boxes f r :
  all_camera_boxes f = Ok r <-> Forall2 (is_camera_box f) (filter (fun s => has_box (snd s)) (labels_of (f_camera_labels f))) r.
Proof.
  unfold all_camera_boxes. rewrite <- sources_labels, filter_map, Forall2_map_l. cbn [snd].
  apply over_ok; [intros; apply camera_box_ok|].
  intros s c ((b & B & _) & _). unfold has_box. cbn in B. now rewrite B.
Qed.
Theorem associations f r :
  all_associations f = Ok r <-> Forall2 (is_association f) (filter (fun s => has_association (snd s)) (labels_of (f_camera_labels f))) r.
Proof.
  unfold all_associations. rewrite <- sources_labels, filter_map, Forall2_map_l. cbn [snd].
  apply over_ok; [intros; apply association_ok|].
  intros s c ((b & B & _) & _). unfold has_association. cbn in B. now rewrite B.
Qed.
Theorem associations_total f : exists r, all_associations f = Ok r.
Proof.
  unfold all_associations, over_labels. induction (label_sources (f_camera_labels f)) as [|s l IH]; cbn [mapM bind]; [eauto|].
  destruct (association_total f (fst s) (snd s)) as [r ->]. cbn [bind]. destruct IH as [q IH].
  destruct (mapM _ l); cbn [bind] in *; [eauto|discriminate].
Qed.

(** The only exceptions are those of the assertions and of the names: never the documented one. *)
Theorem extraction_errors f e :
  (all_lidar_boxes f = Err e -> e = AssertionError) /\
  (all_synced_boxes f = Err e -> e = AssertionError \/ e = KeyError) /\
  (all_projected_boxes f = Err e -> e = AssertionError \/ e = KeyError) /\
  (all_camera_boxes f = Err e -> e = AssertionError).
Proof.
  repeat split; intros E; apply over_err in E as (be & s & af & _ & _ & E).
  - apply lidar_box_err in E. tauto.
  - apply synced_box_err in E as (? & ? & _ & _ & _ & [[-> _]|[-> _]]); auto.
  - apply projected_box_err in E as (? & _ & [[-> _]|[-> _]]); auto.
  - apply camera_box_err in E. tauto.
Qed.
(** One label without its fields stops the extraction of the whole frame. *)
Theorem lidar_boxes_fail f :
  all_lidar_boxes f = Err AssertionError <->
  exists l, In l (f_laser_labels f) /\ has_box l = true /\ forall c, ~ is_lidar_box f l c.
Proof.
  split.
  - intros E. apply over_err in E as (be & s & af & L & _ & E). exists s. apply lidar_box_err in E as (_ & B & N).
    split; [|auto]. rewrite L. apply in_or_app. right. now left.
  - intros (l & I & B & N). destruct (all_lidar_boxes f) as [r|e] eqn:E.
    + exfalso. apply lidar_boxes in E. assert (J : In l (filter has_box (f_laser_labels f))) by (apply filter_In; auto).
      revert J E. generalize (filter has_box (f_laser_labels f)). intros q J F. induction F as [|x c q r X F IH]; [destruct J|].
      destruct J as [->|J]; [eapply N; eauto|auto].
    + f_equal. destruct (extraction_errors f e) as [X _]. now apply X.
Qed.

(** ** Keys *)
Lemma lidar_keys f r :
  all_lidar_boxes f = Ok r ->
  map lb_key r = map (fun l => {| lk_segment := or_default [] (f_context f); lk_time := or_default 0 (f_timestamp f); lk_object := id_of l |})
                     (filter has_box (f_laser_labels f)).
Proof.
  intros E. apply lidar_boxes in E. induction E as [|l c q r X F IH]; cbn; [reflexivity|]. rewrite IH. f_equal.
  destruct X as (_ & (K1 & K2 & K3) & _). destruct (lb_key c); cbn in *. subst. reflexivity.
Qed.
Lemma NoDup_map_iff {A B C} (g : B -> C) (h : A -> B) l :
  (forall x y, g x = g y -> x = y) -> (NoDup (map (fun a => g (h a)) l) <-> NoDup (map h l)).
Proof.
  intros I. rewrite <- (map_map h g). split.
  - apply NoDup_map_inv.
  - intros N. apply FinFun.Injective_map_NoDup; [exact I|exact N].
Qed.
Theorem lidar_keys_distinct f r :
  all_lidar_boxes f = Ok r -> (NoDup (map lb_key r) <-> NoDup (map id_of (filter has_box (f_laser_labels f)))).
Proof.
  intros E. rewrite (lidar_keys f r E).
  apply (NoDup_map_iff (fun i => {| lk_segment := or_default [] (f_context f); lk_time := or_default 0 (f_timestamp f); lk_object := i |}) id_of).
  intros x y. congruence.
Qed.
Theorem camera_keys_distinct f r :
  all_camera_boxes f = Ok r ->
  (NoDup (map cb_key r) <->
   NoDup (map (fun s => (or_default 0 (fst s), id_of (snd s))) (filter (fun s => has_box (snd s)) (labels_of (f_camera_labels f))))).
Proof.
  intros E. apply camera_boxes in E.
  assert (M : map cb_key r =
    map (fun s => {| ck_segment := or_default [] (f_context f); ck_time := or_default 0 (f_timestamp f); ck_camera := or_default 0 (fst s);
                     ck_object := id_of (snd s) |}) (filter (fun s => has_box (snd s)) (labels_of (f_camera_labels f)))).
  { induction E as [|l c q r X F IH]; cbn; [reflexivity|]. rewrite IH. f_equal.
    destruct X as (_ & K1 & K2 & K3 & K4 & _). destruct (cb_key c); cbn in *. subst. reflexivity. }
  rewrite M.
  apply (NoDup_map_iff (fun p => {| ck_segment := or_default [] (f_context f); ck_time := or_default 0 (f_timestamp f);
    ck_camera := fst p; ck_object := snd p |}) (fun s : camera_label => (or_default 0 (fst s), id_of (snd s)))).
  intros [x1 x2] [y1 y2]. cbn. congruence.
Qed.

(** The projected boxes, with documented ids whose objects have 22 characters. *)
Theorem projected_keys f r :
  (forall l, In l (map snd (labels_of (f_projected f))) -> has_box l = true ->
     exists a v, documented_id (id_of l) a v /\ List.length a = 22%nat) ->
  all_projected_boxes f = Ok r ->
  Forall2 (fun l c => documented_id (id_of l) (pk_object (pb_key c)) (pk_camera (pb_key c)))
    (filter has_box (map snd (labels_of (f_projected f)))) r /\
  (NoDup (map pb_key r) <-> NoDup (map id_of (filter has_box (map snd (labels_of (f_projected f)))))).
Proof.
  intros D E. apply projected_boxes in E.
  assert (D' : forall l, In l (filter has_box (map snd (labels_of (f_projected f)))) -> exists a v, documented_id (id_of l) a v /\ List.length a = 22%nat).
  { intros l I. apply filter_In in I as [I B]. auto. }
  clear D. set (ls := filter has_box (map snd (labels_of (f_projected f)))) in *. clearbody ls.
  assert (F : Forall2 (fun l c => documented_id (id_of l) (pk_object (pb_key c)) (pk_camera (pb_key c))) ls r).
  { induction E as [|l c q r X F IH]; constructor.
    - destruct X as (_ & _ & _ & P & _). destruct (D' l (or_introl eq_refl)) as (a & v & (name & ID & N) & L).
      apply parse_ok in P. unfold id_of in ID. rewrite ID in P.
      rewrite (parse_documented a name v N), (proj2 (Nat.eqb_eq _ _) L) in P. injection P as <- <-. exists name. auto.
    - apply IH. intros x I. apply D'. now right. }
  split; [exact F|].
  assert (KEY : Forall2 (fun l c => pb_key c = {| pk_segment := or_default [] (f_context f); pk_time := or_default 0 (f_timestamp f);
      pk_camera := pk_camera (pb_key c); pk_object := pk_object (pb_key c) |}) ls r).
  { clear - E. induction E as [|l c q r X F IH]; constructor; [|exact IH]. destruct X as (_ & K1 & K2 & _).
    destruct (pb_key c); cbn in *. subst. reflexivity. }
  assert (INJ : forall l c l' c', documented_id (id_of l) (pk_object (pb_key c)) (pk_camera (pb_key c)) ->
     documented_id (id_of l') (pk_object (pb_key c')) (pk_camera (pb_key c')) ->
     List.length (pk_object (pb_key c)) = 22%nat -> List.length (pk_object (pb_key c')) = 22%nat ->
     id_of l = id_of l' -> pk_object (pb_key c) = pk_object (pb_key c') /\ pk_camera (pb_key c) = pk_camera (pb_key c')).
  { intros l c l' c' (n & E1 & N1) (m & E2 & N2) L1 L2 EQ. rewrite E1, E2 in EQ.
    assert (P1 := parse_documented (pk_object (pb_key c)) n _ N1). assert (P2 := parse_documented (pk_object (pb_key c')) m _ N2).
    rewrite EQ in P1. rewrite P1, L1, L2, Nat.eqb_refl in P2. injection P2 as -> ->. auto. }
  assert (LEN : Forall (fun c => List.length (pk_object (pb_key c)) = 22%nat) r).
  { clear - E. induction E as [|l c q r X F IH]; constructor; [|exact IH]. destruct X as (_ & _ & _ & (s & n & _ & L & _) & _). exact L. }
  (* the two lists agree on equality of entries *)
  assert (AG : forall ls r, Forall2 (fun l c => documented_id (id_of l) (pk_object (pb_key c)) (pk_camera (pb_key c))) ls r ->
     Forall2 (fun l c => pb_key c = {| pk_segment := or_default [] (f_context f); pk_time := or_default 0 (f_timestamp f);
      pk_camera := pk_camera (pb_key c); pk_object := pk_object (pb_key c) |}) ls r ->
     Forall (fun c => List.length (pk_object (pb_key c)) = 22%nat) r ->
     forall l c, documented_id (id_of l) (pk_object (pb_key c)) (pk_camera (pb_key c)) ->
       pb_key c = {| pk_segment := or_default [] (f_context f); pk_time := or_default 0 (f_timestamp f);
         pk_camera := pk_camera (pb_key c); pk_object := pk_object (pb_key c) |} ->
       List.length (pk_object (pb_key c)) = 22%nat ->
       (In (pb_key c) (map pb_key r) <-> In (id_of l) (map id_of ls))).
  { intros ls' r' F1 F2 F3 l c D1 D2 D3. revert F2 F3. induction F1 as [|l' c' q r' X F1 IH]; intros F2 F3; cbn; [tauto|].
    inversion F2 as [|? ? ? ? KY F2']; subst. inversion F3 as [|? ? LN F3']; subst. rewrite IH by assumption. split; (intros [EQ|I]; [left|auto]).
    - destruct X as (n & E1 & N1), D1 as (m & E2 & N2). rewrite E1, E2, EQ. do 2 f_equal.
      rewrite EQ in N1. eapply camera_injective; eauto.
    - destruct (INJ l' c' l c X D1 LN D3 EQ) as [A B]. rewrite KY, D2, A, B. reflexivity. }
  clear E D' INJ. revert KEY LEN. induction F as [|l c q r X F IH]; intros KEY LEN; cbn; [split; constructor|].
  inversion KEY as [|? ? ? ? KY KEY']; subst. inversion LEN as [|? ? LN LEN']; subst. specialize (IH KEY' LEN').
  assert (A := AG q r F KEY' LEN' l c X KY LN).
  split; intros N; inversion N; subst; constructor; tauto.
Qed.

(** The association of a camera label names the camera box of that label. *)
Theorem association_joins f boxes keys k :
  all_camera_boxes f = Ok boxes -> all_associations f = Ok keys -> In k keys ->
  ((exists c, In c boxes /\ cb_key c = {| ck_segment := ak_segment k; ck_time := ak_time k; ck_camera := ak_camera k; ck_object := ak_object k |}) <->
   exists s, In s (labels_of (f_camera_labels f)) /\ has_box (snd s) = true /\ or_default 0 (fst s) = ak_camera k /\ id_of (snd s) = ak_object k).
Proof.
  intros B A I. apply camera_boxes in B. apply associations in A.
  assert (K : ak_segment k = or_default [] (f_context f) /\ ak_time k = or_default 0 (f_timestamp f)).
  { induction A as [|s x q r X F IH]; [destruct I|]. destruct I as [->|I]; [|auto]. destruct X as (_ & K1 & K2 & _). auto. }
  destruct K as [-> ->]. clear A I.
  assert (IFF : forall s, (In s (labels_of (f_camera_labels f)) /\ has_box (snd s) = true) <->
     In s (filter (fun s => has_box (snd s)) (labels_of (f_camera_labels f)))) by (intros; now rewrite filter_In).
  transitivity (exists s, In s (filter (fun s => has_box (snd s)) (labels_of (f_camera_labels f))) /\
      or_default 0 (fst s) = ak_camera k /\ id_of (snd s) = ak_object k).
  2: { split; [intros (s & J & R)|intros (s & J1 & J2 & R)]; exists s; [apply IFF in J|]; try tauto. split; [apply IFF; auto|exact R]. }
  clear IFF. induction B as [|s c q r X F IH].
  - split; intros (? & [] & _).
  - destruct X as (_ & K1 & K2 & K3 & K4 & _). split.
    + intros (c' & [<-|J] & E); [|destruct IH as [IH _]; destruct IH as (s' & J' & R); [eauto|]; exists s'; split; [now right|exact R]].
      exists s. split; [now left|]. rewrite E in K3, K4. cbn in *. auto.
    + intros (s' & [<-|J] & R1 & R2).
      * exists c. split; [now left|]. destruct (cb_key c); cbn in *. unfold id_of in R2. congruence.
      * destruct IH as [_ IH]. destruct IH as (c' & J' & E); [eauto|]. exists c'. split; [now right|exact E].
Qed.

(** What can be read back from a component. *)
Theorem lidar_box_back f l l' c :
  is_lidar_box f l c -> is_lidar_box f l' c ->
  l_box l = l_box l' /\ id_of l = id_of l' /\ or_default 0 (l_type l) = or_default 0 (l_type l') /\
  (l_metadata l = None <-> l_metadata l' = None) /\
  (forall m m', l_metadata l = Some m -> l_metadata l' = Some m' ->
     speed_x m = speed_x m' /\ speed_y m = speed_y m' /\ accel_x m = accel_x m' /\ accel_y m = accel_y m' /\
     or_default 0 (speed_z m) = or_default 0 (speed_z m') /\ or_default 0 (accel_z m) = or_default 0 (accel_z m')).
Proof.
  intros ((b & B & S) & (_ & _ & K) & T & M & _) ((b' & B' & S') & (_ & _ & K') & T' & M' & _).
  split; [|split; [|split; [|split]]].
  - rewrite B, B'. f_equal. destruct b, b'. unfold same_box3 in *. cbn in *. decompose [and] S. decompose [and] S'. congruence.
  - unfold id_of. congruence.
  - congruence.
  - destruct (l_metadata l), (l_metadata l'); cbn in *; [|destruct M as (?&?&E1&_), M' as (E2&_); congruence|
      destruct M' as (?&?&E1&_), M as (E2&_); congruence|]; split; congruence.
  - intros m m' E E'. rewrite E in M. rewrite E' in M'. destruct M as (s & a & Es & Ea & (A1&A2&A3) & (A4&A5&A6)).
    destruct M' as (s' & a' & Es' & Ea' & (A1'&A2'&A3') & (A4'&A5'&A6')).
    rewrite Es in Es'. injection Es' as <-. rewrite Ea in Ea'. injection Ea' as <-. repeat split; congruence.
Qed.
