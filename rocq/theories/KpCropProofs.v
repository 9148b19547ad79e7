(** Proofs about cropped images, and the errors of default wireframes. *)
From Coq Require Import String Qround Lia Lqa.
From Verif Require Import Base ResultLib KpModel KpSpec KpProofs KpDrawModel KpDrawSpec KpDrawProofs.
Open Scope list_scope.
Open Scope Z_scope.

Lemma mapM_errors {A B} (f : A -> result B) l e : (forall x e, In x l -> f x = Err e -> e = KeyError) -> mapM f l = Err e -> e = KeyError.
Proof.
  induction l as [|x l IH]; intros H; cbn [mapM]; [discriminate|]. destruct (f x) as [y|e1] eqn:E; cbn [bind].
  - destruct (mapM f l) eqn:M; cbn [bind]; [discriminate|]. intros X. injection X as <-. apply IH; [intros z e2 I; apply H; right; exact I|reflexivity].
  - intros X. injection X as <-. apply (H x); [left; reflexivity|exact E].
Qed.

(** A type that is not in the table raises KeyError. *)
Theorem default_error d ks c : same_dim d ks -> c = camera_config \/ c = laser_config -> (exists k, In k ks /\ ~ In (kp_type k) known_types) ->
  build_wireframe ks c = Err KeyError.
Proof.
  intros SD HC (k & I & N). assert (CC : point_colors c = default_colors /\ point_sizes c = default_point_sizes) by (destruct HC as [->| ->]; split; reflexivity).
  destruct CC as [C S]. destruct (build_wireframe ks c) as [w|e] eqn:E.
  - exfalso. apply N. apply (proj1 (default_outcome d ks c SD HC)); [exists w; exact E|exact I].
  - f_equal. unfold build_wireframe, build_wireframe_of in E.
    destruct (mapM_Forall2_ok (fun e => create_lines (scaled (line_width_factor c) e) (keypoint_coordinates ks) (point_colors c)) (edge_shows d ks c) (edges c)) as (parts & M & _).
    { intros x J. apply (scaled_lines d ks c x SD). destruct HC as [->| ->]; cbn in J;
        repeat (destruct J as [<-|J]; [first [exact Logic.I|intros _ _; split; [discriminate|split; [discriminate|repeat constructor; discriminate]]]|]); destruct J. }
    rewrite M in E. cbn [bind] in E. destruct (mapM (make_dot c) (keypoint_coordinates ks)) as [ds|e'] eqn:MD; cbn [bind] in E; [discriminate|]. injection E as <-.
    refine (mapM_errors _ _ _ _ MD). intros [t p] e2 _. unfold make_dot, item. cbn [fst snd]. rewrite <- !entry_get.
    destruct (entry (point_colors c) t) eqn:EC; cbn [bind]; [|congruence]. destruct (entry (point_sizes c) t) eqn:ES; cbn [bind]; [|congruence].
    assert (IT : In t known_types).
    { rewrite C in EC. unfold entry in EC. destruct (find (fun e => fst e =? t) default_colors) as [en|] eqn:F; [|discriminate].
      apply find_some in F. destruct F as [J Q]. apply Z.eqb_eq in Q. unfold default_colors in J. cbn [In] in J.
      repeat (destruct J as [<-|J]; [cbn in Q; subst t; unfold known_types; cbn [In]; tauto|]). destruct J. }
    destruct (proj2 (known_drawable c t C S) IT) as (_ & _ & n & ->). cbn [bind]. discriminate.
Qed.

(** ** Crops *)
Lemma trunc_spec q : trunc q = toward_zero q.
Proof.
  unfold trunc, toward_zero. destruct (Qle_bool 0 q); [reflexivity|]. unfold Qceiling. reflexivity.
Qed.
Lemma toward_comp a b : (a == b)%Q -> toward_zero a = toward_zero b.
Proof.
  intros E. unfold toward_zero. assert (X : Qle_bool 0 a = Qle_bool 0 b).
  { destruct (Qle_bool 0 a) eqn:A, (Qle_bool 0 b) eqn:B; try reflexivity.
    - apply Qle_bool_iff in A. rewrite E in A. apply Qle_bool_iff in A. congruence.
    - apply Qle_bool_iff in B. rewrite <- E in B. apply Qle_bool_iff in B. congruence. }
  rewrite X. destruct (Qle_bool 0 b); [apply Qfloor_comp; exact E|apply Qceiling_comp; exact E].
Qed.
Lemma floor_eq q z : (inject_Z z <= q)%Q -> (q < inject_Z (z + 1))%Q -> Qfloor q = z.
Proof.
  intros A B. assert (X := Qfloor_le q). assert (Y := Qlt_floor q).
  assert (C : (inject_Z z < inject_Z (Qfloor q + 1))%Q) by lra. assert (D : (inject_Z (Qfloor q) < inject_Z (z + 1))%Q) by lra.
  rewrite <- Zlt_Qlt in C, D. lia.
Qed.

(** Where rounding puts a side. *)
Lemma toward_le (z : Z) q : 0 <= z -> (inject_Z z <= q)%Q -> z <= toward_zero q.
Proof.
  intros N H. unfold toward_zero. assert (Z0 : (0 <= q)%Q) by (apply (Qle_trans _ (inject_Z z)); [change 0%Q with (inject_Z 0); rewrite <- Zle_Qle; exact N|exact H]).
  apply Qle_bool_iff in Z0. rewrite Z0. rewrite <- (Qfloor_Z z). apply Qfloor_resp_le. exact H.
Qed.
Lemma toward_ge (z : Z) q : 0 <= z -> (q <= inject_Z z)%Q -> toward_zero q <= z.
Proof.
  intros N H. unfold toward_zero. destruct (Qle_bool 0 q) eqn:E.
  - rewrite <- (Qfloor_Z z). apply Qfloor_resp_le. exact H.
  - rewrite <- (Qceiling_Z z). apply Qceiling_resp_le. exact H.
Qed.
Lemma toward_nonneg q : 0 <= toward_zero q <-> (-1 < q)%Q.
Proof.
  unfold toward_zero. destruct (Qle_bool 0 q) eqn:E.
  - apply Qle_bool_iff in E. split; [intros _; lra|]. intros _. rewrite <- (Qfloor_Z 0). apply Qfloor_resp_le. exact E.
  - split.
    + intros H. assert (X := Qceiling_lt q). assert (Y : (inject_Z 0 <= inject_Z (Qceiling q))%Q) by (rewrite <- Zle_Qle; exact H).
      unfold Z.sub in X. rewrite inject_Z_plus in X. change (inject_Z (-(1))) with (-1)%Q in X. change (inject_Z 0) with 0%Q in Y. lra.
    + intros H. assert (X := Qle_ceiling q). assert (Y : (inject_Z (-1) < inject_Z (Qceiling q))%Q) by (change (inject_Z (-1)) with (-1)%Q; lra).
      rewrite <- Zlt_Qlt in Y. lia.
Qed.

Lemma slice_nth {A} (l : list A) start stop i : 0 <= start -> 0 <= stop <= Z.of_nat (List.length l) ->
  nth_error (slice l start stop) i = if Z.of_nat i <? stop - start then nth_error l (Z.to_nat start + i) else None.
Proof.
  intros S E. unfold slice.
  assert (BE : bound (List.length l) stop = Z.to_nat stop) by (unfold bound; destruct (Z.ltb_spec stop 0); lia).
  assert (BS : bound (List.length l) start = Nat.min (Z.to_nat start) (List.length l)) by (unfold bound; destruct (Z.ltb_spec start 0); lia).
  rewrite BE, BS. destruct (Z.ltb_spec (Z.of_nat i) (stop - start)) as [L|L].
  - assert (M : Nat.min (Z.to_nat start) (List.length l) = Z.to_nat start) by lia. rewrite M.
    assert (G : forall n (m : list A) j, (j < n)%nat -> nth_error (firstn n m) j = nth_error m j).
    { induction n as [|n IH]; intros m j J; [lia|]. destruct m; [destruct j; reflexivity|]. destruct j; [reflexivity|]. cbn. apply IH. lia. }
    rewrite G by lia. clear. revert l. induction (Z.to_nat start) as [|n IH]; intros l; [reflexivity|]. destruct l; [destruct i; reflexivity|]. apply IH.
  - apply nth_error_None. rewrite firstn_length. lia.
Qed.
Lemma slice_in {A} (l : list A) start stop x : In x (slice l start stop) -> In x l.
Proof.
  unfold slice. intros I. set (a := bound _ start) in *. set (n := (_ - _)%nat) in I. rewrite <- (firstn_skipn a l). apply in_app_iff. right.
  rewrite <- (firstn_skipn n (skipn a l)). apply in_app_iff. left. exact I.
Qed.

Section Crop.
Context {A K : Type} (height width : Z) (image : list (list A)) (ks : list (cam_kp K)) (b : box) (margin : Q).
Hypothesis OK : image_ok height width image.

(** Exactly which pixels a crop shows, when the box reaches into the image on the right and below. *)
Lemma crop_pixel : 1 <= height -> 1 <= width -> (-1 < right_side b margin)%Q -> (-1 < bottom_side b margin)%Q ->
  forall y x, pixel (fst (crop_camera_keypoints height width image ks b margin)) y x
    = if (0 <=? y) && (0 <=? x) && (y <? end_shown height (bottom_side b margin) - first_shown (top_side b margin))
         && (x <? end_shown width (right_side b margin) - first_shown (left_side b margin))
      then pixel image (first_shown (top_side b margin) + y) (first_shown (left_side b margin) + x) else None.
Proof.
  intros H1 W1 R B y x. destruct OK as [OH OW]. unfold crop_camera_keypoints. cbn [fst].
  change (trunc (center_x b - (1 + margin) * length_ b / 2)) with (trunc (left_side b margin)). change (trunc (center_y b - (1 + margin) * width_ b / 2)) with (trunc (top_side b margin)).
  change (trunc (center_x b + (1 + margin) * length_ b / 2)) with (trunc (right_side b margin)). change (trunc (center_y b + (1 + margin) * width_ b / 2)) with (trunc (bottom_side b margin)).
  rewrite (trunc_spec (left_side b margin)), (trunc_spec (right_side b margin)), (trunc_spec (top_side b margin)), (trunc_spec (bottom_side b margin)).
  fold (first_shown (left_side b margin)) (first_shown (top_side b margin)) (end_shown width (right_side b margin)) (end_shown height (bottom_side b margin)).
  apply toward_nonneg in R, B.
  assert (FL : 0 <= first_shown (left_side b margin)) by (unfold first_shown; lia). assert (FT : 0 <= first_shown (top_side b margin)) by (unfold first_shown; lia).
  assert (EX : 0 <= end_shown width (right_side b margin) <= width) by (unfold end_shown; lia).
  assert (EY : 0 <= end_shown height (bottom_side b margin) <= height) by (unfold end_shown; lia).
  generalize dependent (first_shown (left_side b margin)). generalize dependent (first_shown (top_side b margin)).
  generalize dependent (end_shown width (right_side b margin)). generalize dependent (end_shown height (bottom_side b margin)). intros ey EY ex EX fy FT fx FL.
  unfold pixel. destruct (Z.ltb_spec y 0) as [Y|Y]; cbn [orb].
  { destruct (Z.leb_spec 0 y); [lia|reflexivity]. }
  destruct (Z.leb_spec 0 y); [|lia]. destruct (Z.ltb_spec x 0) as [X|X].
  { destruct (Z.leb_spec 0 x); [lia|reflexivity]. }
  destruct (Z.leb_spec 0 x); [|lia]. cbn [andb].
  destruct (Z.ltb_spec (fy + y) 0); [lia|]. destruct (Z.ltb_spec (fx + x) 0); [lia|]. cbn [orb].
  rewrite nth_error_map, slice_nth by lia. rewrite Z2Nat.id by lia.
  destruct (Z.ltb_spec y (ey - fy)) as [L|L]; cbn [andb]; [|reflexivity].
  replace (Z.to_nat fy + Z.to_nat y)%nat with (Z.to_nat (fy + y)) by lia.
  destruct (nth_error image (Z.to_nat (fy + y))) as [row|] eqn:E; cbn [option_map]; [|destruct (x <? ex - fx); reflexivity].
  apply nth_error_In in E. rewrite Forall_forall in OW. specialize (OW row E). rewrite slice_nth by lia. rewrite Z2Nat.id by lia.
  replace (Z.to_nat fx + Z.to_nat x)%nat with (Z.to_nat (fx + x)) by lia. reflexivity.
Qed.

(** Every keypoint is moved with the image. *)
Lemma crop_keypoints : Forall2 (fun k k' => (px k' == px k - inject_Z (first_shown (left_side b margin)))%Q /\ (py k' == py k - inject_Z (first_shown (top_side b margin)))%Q /\ rest k' = rest k)
    ks (snd (crop_camera_keypoints height width image ks b margin)).
Proof.
  unfold crop_camera_keypoints. cbn [snd].
  change (trunc (center_x b - (1 + margin) * length_ b / 2)) with (trunc (left_side b margin)). change (trunc (center_y b - (1 + margin) * width_ b / 2)) with (trunc (top_side b margin)).
  rewrite (trunc_spec (left_side b margin)), (trunc_spec (top_side b margin)). induction ks as [|k l IH]; constructor; [|exact IH]. cbn [px py rest].
  split; [reflexivity|]. split; reflexivity.
Qed.
End Crop.

(** The pixel under a keypoint stays under it. *)
Theorem crop_follows : forall (A K : Type) height width (image : list (list A)) (k : cam_kp K) b margin y x, image_ok height width image -> 1 <= height -> 1 <= width ->
  (-1 < right_side b margin)%Q -> (-1 < bottom_side b margin)%Q -> (px k == inject_Z x)%Q -> (py k == inject_Z y)%Q ->
  first_shown (left_side b margin) <= x < end_shown width (right_side b margin) -> first_shown (top_side b margin) <= y < end_shown height (bottom_side b margin) ->
  exists crop k' x' y', crop_camera_keypoints height width image [k] b margin = (crop, [k']) /\ (px k' == inject_Z x')%Q /\ (py k' == inject_Z y')%Q
    /\ pixel crop y' x' = pixel image y x /\ pixel crop y' x' <> None.
Proof.
  intros A K height width image k b margin y x OK H W R B PX PY X Y. assert (CP := crop_pixel height width image [k] b margin OK H W R B). assert (CK := crop_keypoints (A := A) height width image [k] b margin).
  destruct (crop_camera_keypoints height width image [k] b margin) as [crop ks']. cbn [fst snd] in *. inversion CK as [|? k' ? r (EX & EY & _) F E1 E2]; subst. inversion F; subst.
  exists crop, k', (x - first_shown (left_side b margin)), (y - first_shown (top_side b margin)). split; [reflexivity|].
  split; [rewrite EX, PX; unfold Z.sub; rewrite inject_Z_plus, inject_Z_opp; reflexivity|].
  split; [rewrite EY, PY; unfold Z.sub; rewrite inject_Z_plus, inject_Z_opp; reflexivity|].
  assert (FX : 0 <= first_shown (left_side b margin)) by (unfold first_shown; lia). assert (FY : 0 <= first_shown (top_side b margin)) by (unfold first_shown; lia).
  assert (E : pixel crop (y - first_shown (top_side b margin)) (x - first_shown (left_side b margin)) = pixel image y x).
  { rewrite CP. destruct (Z.leb_spec 0 (y - first_shown (top_side b margin))); [|lia]. destruct (Z.leb_spec 0 (x - first_shown (left_side b margin))); [|lia].
    destruct (Z.ltb_spec (y - first_shown (top_side b margin)) (end_shown height (bottom_side b margin) - first_shown (top_side b margin))); [|lia].
    destruct (Z.ltb_spec (x - first_shown (left_side b margin)) (end_shown width (right_side b margin) - first_shown (left_side b margin))); [|lia]. cbn [andb].
    f_equal; lia. }
  split; [exact E|]. rewrite E. unfold pixel. destruct (Z.ltb_spec y 0); [lia|]. destruct (Z.ltb_spec x 0); [lia|]. cbn [orb].
  destruct OK as [OH OW]. assert (EW : end_shown width (right_side b margin) <= width) by (unfold end_shown; lia). assert (EH : end_shown height (bottom_side b margin) <= height) by (unfold end_shown; lia).
  destruct (nth_error image (Z.to_nat y)) as [row|] eqn:N; [|apply nth_error_None in N; lia].
  apply nth_error_In in N. rewrite Forall_forall in OW. specialize (OW row N). intros C. apply nth_error_None in C. lia.
Qed.

(** What lies inside the box is shown, except in the last column and row. *)
Theorem crop_inside width side_lo side_hi x : 0 <= x < width - 1 -> (side_lo <= inject_Z x)%Q -> (inject_Z (x + 1) <= side_hi)%Q ->
  first_shown side_lo <= x < end_shown width side_hi.
Proof.
  intros X L H. assert (A := toward_ge x side_lo ltac:(lia) L). assert (B := toward_le (x + 1) side_hi ltac:(lia) H). unfold first_shown, end_shown. lia.
Qed.
(** The last column and row never are. *)
Theorem crop_last : forall (A K : Type) height width (image : list (list A)) (ks : list (cam_kp K)) b margin, image_ok height width image -> 1 <= height -> 1 <= width ->
  (-1 < right_side b margin)%Q -> (-1 < bottom_side b margin)%Q ->
  forall y x, pixel (fst (crop_camera_keypoints height width image ks b margin)) y x <> None ->
    first_shown (top_side b margin) + y < height - 1 /\ first_shown (left_side b margin) + x < width - 1.
Proof.
  intros A K height width image ks b margin OK H W R B y x N. rewrite (crop_pixel height width image ks b margin OK H W R B) in N.
  destruct (Z.ltb_spec y (end_shown height (bottom_side b margin) - first_shown (top_side b margin))); [|rewrite andb_false_r in N; cbn in N; congruence].
  destruct (Z.ltb_spec x (end_shown width (right_side b margin) - first_shown (left_side b margin))); [|rewrite andb_false_r in N; congruence].
  unfold end_shown in *. lia.
Qed.
(** A box around the whole image. *)
Theorem whole_refuted : exists height width (image : list (list Z)) b, image_ok height width image /\ (left_side b 0 == 0)%Q /\ (right_side b 0 == inject_Z width)%Q
  /\ (top_side b 0 == 0)%Q /\ (bottom_side b 0 == inject_Z height)%Q
  /\ image = [[1; 2; 3]; [4; 5; 6]] /\ fst (crop_camera_keypoints (K := unit) height width image [] b 0) = [[1; 2]].
Proof.
  exists 2, 3, [[1; 2; 3]; [4; 5; 6]], {| center_x := 3 # 2; center_y := 1; length_ := 3; width_ := 2 |}.
  split; [split; [reflexivity|repeat constructor]|]. repeat (split; [reflexivity|]). vm_compute. reflexivity.
Qed.
(** A box outside the image on the left. *)
Theorem outside_refuted : exists height width (image : list (list Z)) b, image_ok height width image /\ (right_side b 0 < 0)%Q
  /\ image = [[1; 2; 3; 4; 5]; [6; 7; 8; 9; 10]] /\ fst (crop_camera_keypoints (K := unit) height width image [] b 0) = [[1; 2; 3]].
Proof.
  exists 2, 5, [[1; 2; 3; 4; 5]; [6; 7; 8; 9; 10]], {| center_x := -4; center_y := 1; length_ := 4; width_ := 2 |}.
  split; [split; [reflexivity|repeat constructor]|]. repeat (split; [reflexivity|]). vm_compute. reflexivity.
Qed.

Theorem crop_pixels : forall (A K : Type) height width (image : list (list A)) (ks : list (cam_kp K)) b margin, image_ok height width image -> 1 <= height -> 1 <= width ->
  (-1 < right_side b margin)%Q -> (-1 < bottom_side b margin)%Q ->
  forall y x, pixel (fst (crop_camera_keypoints height width image ks b margin)) y x
    = if (0 <=? y) && (0 <=? x) && (y <? end_shown height (bottom_side b margin) - first_shown (top_side b margin))
         && (x <? end_shown width (right_side b margin) - first_shown (left_side b margin))
      then pixel image (first_shown (top_side b margin) + y) (first_shown (left_side b margin) + x) else None.
Proof. intros A K. exact (@crop_pixel A K). Qed.
Theorem crop_moved : forall (A K : Type) height width (image : list (list A)) (ks : list (cam_kp K)) b margin,
  Forall2 (fun k k' => (px k' == px k - inject_Z (first_shown (left_side b margin)))%Q /\ (py k' == py k - inject_Z (first_shown (top_side b margin)))%Q /\ rest k' = rest k)
    ks (snd (crop_camera_keypoints height width image ks b margin)).
Proof. intros A K. exact (@crop_keypoints A K). Qed.

(** ** The default tables *)
Theorem default_skeletons : skeleton "FOREHEAD" (edges camera_config) /\ skeleton "HEAD_CENTER" (edges laser_config).
Proof.
  assert (J : forall a b s t w, point_name s = Ok a -> point_name t = Ok b -> joins w (a, b) (Bicolored s t w)) by (intros a b s t w A B; exists s, t; auto).
  assert (B : Forall2 (joins 2) body_bones common_edges) by (unfold body_bones, common_edges; cbn; repeat (constructor; [apply J; reflexivity|]); constructor).
  split; exists common_edges; eexists; eexists; (split; [reflexivity|]); (split; [exact B|]); (split; [apply J; reflexivity|]); do 3 eexists; (split; [reflexivity|repeat split]).
Qed.
(** Sizes are above zero and at most one, reached by the hips, and the same on both sides. *)
Theorem default_sizes : forall t, In t known_types -> exists s, entry default_point_sizes t = Some s /\ (0 < s <= 1)%Q /\ entry default_point_sizes (mirror t) = Some s
  /\ ((s == 1)%Q <-> t = 8 \/ t = 16).
Proof.
  intros t I. unfold known_types in I. cbn [In] in I.
  repeat (destruct I as [<-|I]; [eexists; split; [vm_compute; reflexivity|]; split; [split; vm_compute; congruence|]; split; [vm_compute; reflexivity|];
    split; [intros H; vm_compute in H; (discriminate || (left; reflexivity) || (right; reflexivity))|intros [H|H]; (discriminate || (vm_compute; reflexivity))]|]). destruct I.
Qed.
(** Two points have one color only if they are the two points of the head. *)
Theorem default_colors_differ : forall s t c, entry default_colors s = Some c -> entry default_colors t = Some c -> s = t \/ (s = 19 /\ t = 20) \/ (s = 20 /\ t = 19).
Proof.
  assert (K : forall s c, entry default_colors s = Some c -> In (s, c) default_colors).
  { intros s c H. unfold entry in H. destruct (find _ default_colors) as [[x y]|] eqn:F; [|discriminate]. injection H as H. cbn in H. subst y.
    apply find_some in F. destruct F as [I Q]. apply Z.eqb_eq in Q. cbn in Q. subst x. exact I. }
  intros s t c A B. apply K in A, B. unfold default_colors in A, B. cbn [In] in A, B.
  repeat (destruct A as [A|A]; [injection A as <- <-; repeat (destruct B as [B|B]; [injection B as <- ; (tauto || discriminate || idtac)|]); destruct B|]). destruct A.
Qed.
Theorem default_factors : dot_size_factor camera_config = 6%Q /\ line_width_factor camera_config = 1%Q /\ dot_size_factor laser_config = 15%Q /\ line_width_factor laser_config = 4%Q.
Proof. repeat split. Qed.
(** What is handed to the plotting library: each line, then all dots, with their colors and borders. *)
Theorem laser_traces : forall w ts, draw_laser_wireframe w = Ok ts ->
  exists ls ds, ts = ls ++ [DotTrace ds] /\ Forall2 (fun l t => t = LineTrace (l_start l) (l_end l) (l_color l) (l_width l)) (lines w) ls
    /\ Forall2 (fun d x => x = (d_location d, d_name d, d_color d, d_size d, actual_border_color d)) (dots w) ds.
Proof.
  intros w ts H. unfold draw_laser_wireframe in H. destruct (dots w) as [|d0 dr] eqn:E; [discriminate|]. injection H as <-. eexists. eexists. split; [reflexivity|].
  split; [induction (lines w); constructor; auto|]. change (d0 :: dr) with (d0 :: dr). clear E. constructor; [reflexivity|]. induction dr; constructor; auto.
Qed.
