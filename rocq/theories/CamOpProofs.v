(** Proofs about the camera operations. *)
From Coq Require Import Reals ZArith List Lia Lra.
From Verif Require Import Base ResultLib GeomModel FrameModel CamModel FrameSpec CamSpec CamLens CamFrames CamFacts CamOpModel CamOpSpec.
Import ListNotations.
Open Scope R_scope.

Lemma shutter_number d n : direction_number d n <-> shutter_of n = d.
Proof.
  split.
  - destruct d; cbn [direction_number]; intros H; subst; try reflexivity. destruct n as [|p|p]; try reflexivity.
    do 5 (destruct p as [p|p|]; try reflexivity; try (exfalso; lia)).
  - intros <-. destruct n as [|p|p]; cbn [shutter_of direction_number]; try lia.
    destruct p as [[p|[p|p|]|]|[[p|p|]|[p|p|]|]|]; cbn [shutter_of direction_number]; lia.
Qed.
Lemma list4 {A} (l : list A) : length l = 4%nat -> exists a b c d, l = [a; b; c; d].
Proof. do 5 (destruct l as [|? l]; try discriminate). intros _. do 4 eexists. reflexivity. Qed.

(** The layout of the inputs. *)
Theorem parse_described : forall inp c i, describes inp c i -> parse_input inp = Ok (c, i).
Proof.
  intros [ext intr meta cim coords] c i ((l1 & L1 & E1) & E2 & (w & h & n & E3 & Ew & Eh & En) & (l2 & L2 & E4)).
  cbn [in_extrinsic in_intrinsic in_metadata in_image_metadata] in *. subst ext intr meta cim.
  destruct (list4 _ L1) as (a1 & a2 & a3 & a4 & ->). destruct (list4 _ L2) as (b1 & b2 & b3 & b4 & ->).
  apply shutter_number in En.
  destruct c as [f1 f2 f3 f4 f5 f6 f7 f8 f9 [[[[e1 e2] e3] [[e4 e5] e6] [[e7 e8] e9]] [[e10 e11] e12]] w' h' d]. cbn [width height rolling_shutter_direction] in *. subst w' h' d.
  destruct i as [[[[[g1 g2] g3] [[g4 g5] g6] [[g7 g8] g9]] [[g10 g11] g12]] [[v1 v2] v3] [[w1 w2] w3] t1 t2 t3 t4]. reflexivity.
Qed.
Lemma check_ok a b u : check_eq a b = Ok u -> a = b.
Proof. unfold check_eq. destruct (Nat.eqb a b) eqn:E; [apply Nat.eqb_eq in E; auto|discriminate]. Qed.
Lemma bind_ok {A B} (r : result A) (f : A -> result B) b : (do x <- r; f x) = Ok b -> exists a, r = Ok a /\ f a = Ok b.
Proof. destruct r as [a|e]; cbn [bind]; [eauto|discriminate]. Qed.
Lemma mapM_head_ok {A B} (f : A -> result B) a l r : mapM f (a :: l) = Ok r -> exists b, f a = Ok b.
Proof. cbn [mapM]. intros H. apply bind_ok in H. destruct H as (b & E & _). eauto. Qed.
Lemma vec_dims {A} (t : tensor A) k v : vec_at t k = Ok v -> exists n, dims t = [n].
Proof. unfold vec_at. destruct (dims t) as [|n [|m l]]; try discriminate. eauto. Qed.
Lemma matrix_dims {A} (t : tensor A) a b v : matrix_at t a b = Ok v -> exists n m, dims t = [n; m].
Proof. unfold matrix_at. destruct (dims t) as [|n [|m [|k l]]]; try discriminate. eauto. Qed.
Lemma dim_0 {A} (t : tensor A) n : dim_size t 0 = Ok n -> exists l, dims t = n :: l.
Proof. unfold dim_size. destruct (dims t) as [|m l]; cbn [nth_error]; [discriminate|]. intros E. injection E as ->. eauto. Qed.
Lemma dim_1 {A} (t : tensor A) n : dim_size t 1 = Ok n -> exists m l, dims t = m :: n :: l.
Proof. unfold dim_size. destruct (dims t) as [|m [|k l]]; cbn [nth_error]; try discriminate. intros E. injection E as ->. eauto. Qed.
Theorem parse_describes : forall inp c i, whole (in_extrinsic inp) -> whole (in_intrinsic inp) -> whole (in_metadata inp) -> whole (in_image_metadata inp) ->
  (parse_input inp = Ok (c, i) <-> describes inp c i).
Proof.
  intros inp c i W1 W2 W3 W4. split; [|apply parse_described]. intros H. pose proof H as H0.
  assert (D : dims (in_extrinsic inp) = [4; 4]%nat /\ dims (in_intrinsic inp) = [9]%nat /\ dims (in_metadata inp) = [3]%nat /\ dims (in_image_metadata inp) = [26]%nat).
  { unfold parse_input in H0.
    apply bind_ok in H0 as (n1 & D1 & H0). apply bind_ok in H0 as (u1 & C1 & H0). apply bind_ok in H0 as (n2 & D2 & H0). apply bind_ok in H0 as (u2 & C2 & H0).
    apply bind_ok in H0 as (e & M1 & H0). apply bind_ok in H0 as (n3 & D3 & H0). apply bind_ok in H0 as (u3 & C3 & H0). apply bind_ok in H0 as (f & M2 & H0).
    apply bind_ok in H0 as (n4 & D4 & H0). apply bind_ok in H0 as (u4 & C4 & H0). apply bind_ok in H0 as (w & M3 & H0). apply bind_ok in H0 as (h & M4 & H0). apply bind_ok in H0 as (d & M5 & H0).
    apply bind_ok in H0 as (n5 & D5 & H0). apply bind_ok in H0 as (u5 & C5 & H0). apply bind_ok in H0 as (m & M6 & H0). clear H0 H.
    apply check_ok in C1, C2, C3, C4, C5. subst n1 n2 n3 n4 n5.
    change (seq 0 16) with (0%nat :: seq 1 15) in M1. change (seq 0 9) with (0%nat :: seq 1 8) in M2. change (seq 0 26) with (0%nat :: seq 1 25) in M6.
    apply mapM_head_ok in M1 as (? & M1). apply mapM_head_ok in M2 as (? & M2). apply mapM_head_ok in M6 as (? & M6).
    apply matrix_dims in M1 as (? & ? & M1). apply vec_dims in M2 as (? & M2). apply vec_dims in M3 as (? & M3). apply vec_dims in M6 as (? & M6).
    unfold dim_size in *. rewrite M1 in *. rewrite M2 in *. rewrite M3 in *. rewrite M6 in *. cbn [nth_error] in *.
    injection D1 as ->. injection D2 as ->. injection D3 as ->. injection D4 as ->. injection D5 as ->. repeat split. }
  destruct D as (D1 & D2 & D3 & D4). unfold whole in *. rewrite D1 in W1. rewrite D2 in W2. rewrite D3 in W3. rewrite D4 in W4. cbn [fold_right] in *.
  cbn in W1, W2, W3, W4.
  destruct inp as [[de ce] [di ci] [dm cm] [dc cc] coords]. cbn [in_extrinsic in_intrinsic in_metadata in_image_metadata dims cells] in *. subst de di dm dc.
  do 17 (destruct ce as [|? ce]; try discriminate W1). do 10 (destruct ci as [|? ci]; try discriminate W2). do 4 (destruct cm as [|? cm]; try discriminate W3).
  do 27 (destruct cc as [|? cc]; try discriminate W4). clear W1 W2 W3 W4.
  cbn in H. injection H as <- <-. unfold describes. cbn [in_extrinsic in_intrinsic in_metadata in_image_metadata f_u f_v c_u c_v k1 k2 k3 k4 k5 extrinsic width height rolling_shutter_direction image_pose v_xyz w_xyz pose_timestamp shutter_time camera_trigger_time camera_readout_done_time].
  split; [eexists; split; [|reflexivity]; reflexivity|]. split; [reflexivity|]. split.
  - eexists; eexists; eexists. split; [reflexivity|]. split; [reflexivity|]. split; [reflexivity|]. apply shutter_number. reflexivity.
  - match goal with |- exists last, _ /\ {| dims := _; cells := ?L |} = _ => exists (firstn 4 (skipn 12 L)) end. split; reflexivity.
Qed.

(** Tables of points. *)
Lemma concat_triples ps : length (concat (map triple ps)) = (length ps * 3)%nat.
Proof. induction ps as [|[[a b] c] ps IH]; [reflexivity|]. cbn [map concat triple app length]. rewrite IH. lia. Qed.
Lemma read_after {A} (pre rest : list A) k : nth_error (pre ++ rest) (length pre + k) = nth_error rest k.
Proof. rewrite nth_error_app2 by lia. f_equal. lia. Qed.
Lemma coordinate_table t pre p post : table t (pre ++ p :: post) -> coordinate t (length pre) = Ok p.
Proof.
  intros ->. unfold coordinate, matrix_at, read. cbn [dims cells]. rewrite map_app, concat_app. cbn [map concat].
  rewrite <- concat_triples. rewrite !read_after. destruct p as [[a b] c]. reflexivity.
Qed.
Lemma table_rows {B} t (g : nat -> vec3 -> result B) ps : forall pre, table t (pre ++ ps) ->
  mapM (fun k => do p <- coordinate t k; g k p) (seq (length pre) (length ps)) = mapM (fun kp => g (fst kp) (snd kp)) (combine (seq (length pre) (length ps)) ps).
Proof.
  induction ps as [|p ps IH]; intros pre T; [reflexivity|]. cbn [length seq mapM combine fst snd]. rewrite (coordinate_table t pre p ps T). cbn [bind].
  specialize (IH (pre ++ [p])). rewrite <- app_assoc in IH. specialize (IH T). rewrite app_length in IH. cbn [length] in IH. rewrite Nat.add_1_r in IH. rewrite IH. reflexivity.
Qed.
Lemma mapM_combine {B} (g : vec3 -> result B) ps : forall k, mapM (fun kp => g (snd kp)) (combine (seq k (length ps)) ps) = mapM g ps.
Proof. induction ps as [|p ps IH]; intros k; [reflexivity|]. cbn [length seq combine mapM snd]. rewrite IH. reflexivity. Qed.
Lemma table_mapM {B} t (g : vec3 -> result B) ps : table t ps -> mapM (fun k => do p <- coordinate t k; g p) (seq 0 (length ps)) = mapM g ps.
Proof. intros T. etransitivity; [exact (table_rows t (fun _ => g) ps [] T)|]. apply mapM_combine. Qed.
Lemma mapM_Forall2 {A B} (f : A -> result B) l : forall r, mapM f l = Ok r <-> Forall2 (fun a b => f a = Ok b) l r.
Proof.
  induction l as [|a l IH]; intros r; cbn [mapM]; split; intros H.
  - injection H as <-. constructor.
  - inversion H. reflexivity.
  - apply bind_ok in H as (b & E & H). apply bind_ok in H as (bs & E2 & H). injection H as <-. constructor; [exact E|]. apply IH. exact E2.
  - inversion H as [|? b ? bs E F]; subst. rewrite E. cbn [bind]. apply IH in F. rewrite F. reflexivity.
Qed.
Lemma usable_ok c i : prepare_projection c i = Ok tt <-> usable c i.
Proof.
  unfold prepare_projection, usable. destruct (rolling_shutter_direction c); split; intros H; try (left; reflexivity); try reflexivity;
    try (apply bind_ok in H as (s & E & _); right; eauto); destruct H as [H|[s E]]; try discriminate H; rewrite E; reflexivity.
Qed.
Lemma usable_inv c i u : prepare_projection c i = Ok u -> usable c i.
Proof. destruct u. apply usable_ok. Qed.
Lemma row_of d r : output_row d r = if d then [fst (pixel r); snd (pixel r); depth r; if ok r then 1 else 0] else [fst (pixel r); snd (pixel r); if ok r then 1 else 0].
Proof. destruct d; reflexivity. Qed.
Lemma rows_split {A} (f : A -> result projection) d l rows :
  Forall2 (fun a row => (do r <- f a; Ok (output_row d r)) = Ok row) l rows <-> exists rs, Forall2 (fun a r => f a = Ok r) l rs /\ Forall2 (result_row d) rs rows.
Proof.
  split.
  - induction 1 as [|a row l rows E F IH]; [exists []; split; constructor|]. destruct IH as (rs & F1 & F2). apply bind_ok in E as (r & E & Er). injection Er as <-.
    exists (r :: rs). split; constructor; try assumption. apply row_of.
  - intros (rs & F1 & F2). revert rows F2. induction F1 as [|a r l rs E F IH]; intros rows F2; inversion F2; subst; constructor; [|apply IH; assumption].
    rewrite E. cbn [bind]. f_equal. rewrite row_of. symmetry. assumption.
Qed.
Theorem world_rows : forall inp c i ps d out, describes inp c i -> table (input_coordinate inp) ps ->
  (world_to_image_op d inp = Ok out <->
   usable c i /\ exists rs rows, Forall2 (fun p r => world_to_image c i false {| ok := false; pixel := (0, 0); depth := 0 |} p = Ok r) ps rs
     /\ Forall2 (result_row d) rs rows /\ out = {| dims := [length ps; if d then 4 else 3]%nat; cells := concat rows |}).
Proof.
  intros inp c i ps d out D T. unfold world_to_image_op. rewrite (parse_described _ _ _ D). cbn [bind].
  assert (E0 : dim_size (input_coordinate inp) 0 = Ok (length ps)) by (rewrite T; reflexivity). assert (E1 : dim_size (input_coordinate inp) 1 = Ok 3%nat) by (rewrite T; reflexivity).
  rewrite E0, E1. cbn [bind]. change (check_eq 3 3) with (Ok tt). cbn [bind]. rewrite (table_mapM _ (fun p => do r <- world_to_image c i false untouched p; Ok (output_row d r)) ps T).
  split; intros H.
  - apply bind_ok in H as (u & E & H). apply usable_inv in E. split; [exact E|]. apply bind_ok in H as (rows & M & H). injection H as <-.
    apply mapM_Forall2, rows_split in M. destruct M as (rs & F1 & F2). exists rs, rows. split; [exact F1|]. split; [exact F2|]. destruct d; reflexivity.
  - destruct H as (U & rs & rows & F1 & F2 & ->). apply usable_ok in U. rewrite U. cbn [bind].
    assert (M : mapM (fun p => do r <- world_to_image c i false untouched p; Ok (output_row d r)) ps = Ok rows) by (apply mapM_Forall2, rows_split; exists rs; split; assumption).
    rewrite M. cbn [bind]. destruct d; reflexivity.
Qed.
(** Moving points. *)
Lemma two_tables {B} t tv (g : vec3 -> vec3 -> result B) : forall ps vs pre prev, length pre = length prev -> table t (pre ++ ps) -> table tv (prev ++ vs) -> length ps = length vs ->
  mapM (fun k => do p <- coordinate t k; do v <- coordinate tv k; g p v) (seq (length pre) (length ps)) = mapM (fun pv => g (fst pv) (snd pv)) (combine ps vs).
Proof.
  induction ps as [|p ps IH]; intros vs pre prev L T Tv Lv; destruct vs as [|v vs]; try discriminate Lv; [reflexivity|].
  cbn [length seq mapM combine fst snd]. rewrite (coordinate_table t pre p ps T). cbn [bind]. rewrite L. rewrite (coordinate_table tv prev v vs Tv). cbn [bind]. rewrite <- L.
  specialize (IH vs (pre ++ [p]) (prev ++ [v])). rewrite !app_length in IH. cbn [length] in IH. rewrite <- !app_assoc in IH. rewrite Nat.add_1_r in IH.
  rewrite IH; [reflexivity|rewrite L; lia|exact T|exact Tv|cbn [length] in Lv; lia].
Qed.
Theorem moving_rows : forall inp velocity c i ps vs d out, describes inp c i -> table (input_coordinate inp) ps -> table velocity vs -> length ps = length vs ->
  (world_to_image_moving_point_op d inp velocity = Ok out <->
   usable c i /\ exists rs rows, Forall2 (fun pv r => world_to_image_moving c i false {| ok := false; pixel := (0, 0); depth := 0 |} (fst pv) (snd pv) = Ok r) (combine ps vs) rs
     /\ Forall2 (result_row d) rs rows /\ out = {| dims := [length ps; if d then 4 else 3]%nat; cells := concat rows |}).
Proof.
  intros inp velocity c i ps vs d out D T Tv L. unfold world_to_image_moving_point_op. rewrite (parse_described _ _ _ D). cbn [bind].
  assert (E0 : dim_size (input_coordinate inp) 0 = Ok (length ps)) by (rewrite T; reflexivity). assert (E1 : dim_size (input_coordinate inp) 1 = Ok 3%nat) by (rewrite T; reflexivity).
  rewrite E0, E1. cbn [bind]. change (check_eq 3 3) with (Ok tt). cbn [bind].
  pose proof (two_tables (input_coordinate inp) velocity (fun p v => do r <- world_to_image_moving c i false untouched p v; Ok (output_row d r)) ps vs [] [] eq_refl T Tv L) as M0. cbn [length] in M0. rewrite M0. clear M0.
  split; intros H.
  - apply bind_ok in H as (u & E & H). apply usable_inv in E. split; [exact E|]. apply bind_ok in H as (rows & M & H). injection H as <-.
    apply mapM_Forall2 in M. apply (rows_split (fun pv => world_to_image_moving c i false untouched (fst pv) (snd pv))) in M.
    destruct M as (rs & F1 & F2). exists rs, rows. split; [exact F1|]. split; [exact F2|]. destruct d; reflexivity.
  - destruct H as (U & rs & rows & F1 & F2 & ->). apply usable_ok in U. rewrite U. cbn [bind].
    assert (M : mapM (fun pv => do r <- world_to_image_moving c i false untouched (fst pv) (snd pv); Ok (output_row d r)) (combine ps vs) = Ok rows).
    { apply mapM_Forall2. apply (rows_split (fun pv => world_to_image_moving c i false untouched (fst pv) (snd pv))). exists rs; split; assumption. }
    rewrite M. cbn [bind]. destruct d; reflexivity.
Qed.
Lemma points_split c i qs rows :
  Forall2 (fun q row => (do p <- image_to_world c i (X q) (Y q) (Z_ q); Ok [X p; Y p; Z_ p]) = Ok row) qs rows <->
  exists ps, Forall2 (fun q p => image_to_world c i (X q) (Y q) (Z_ q) = Ok p) qs ps /\ rows = map triple ps.
Proof.
  split.
  - induction 1 as [|q row qs rows E F IH]; [exists []; split; [constructor|reflexivity]|]. destruct IH as (ps & F1 & ->). apply bind_ok in E as (p & E & Er). injection Er as <-.
    exists (p :: ps). split; [constructor; assumption|]. destruct p as [[a b] e]. reflexivity.
  - intros (ps & F & ->). induction F as [|q p qs ps E F IH]; [constructor|]. cbn [map]. constructor; [rewrite E; destruct p as [[a b] e]; reflexivity|exact IH].
Qed.
Lemma Forall2_len {A B} (P : A -> B -> Prop) l m : Forall2 P l m -> length l = length m.
Proof. induction 1; cbn [length]; congruence. Qed.
Theorem world_points : forall inp c i qs out, describes inp c i -> table (input_coordinate inp) qs ->
  (image_to_world_op inp = Ok out <->
   usable c i /\ exists ps, Forall2 (fun q p => image_to_world c i (X q) (Y q) (Z_ q) = Ok p) qs ps /\ table out ps).
Proof.
  intros inp c i qs out D T. unfold image_to_world_op. rewrite (parse_described _ _ _ D). cbn [bind].
  assert (E0 : dim_size (input_coordinate inp) 0 = Ok (length qs)) by (rewrite T; reflexivity). assert (E1 : dim_size (input_coordinate inp) 1 = Ok 3%nat) by (rewrite T; reflexivity).
  rewrite E0, E1. cbn [bind]. change (check_eq 3 3) with (Ok tt). cbn [bind]. rewrite (table_mapM _ (fun q => do p <- image_to_world c i (X q) (Y q) (Z_ q); Ok [X p; Y p; Z_ p]) qs T).
  split; intros H.
  - apply bind_ok in H as (u & E & H). apply usable_inv in E. split; [exact E|]. apply bind_ok in H as (rows & M & H). injection H as <-.
    apply mapM_Forall2, points_split in M. destruct M as (ps & F & ->). exists ps. split; [exact F|]. unfold table, output_tensor. rewrite (Forall2_len _ _ _ F). reflexivity.
  - destruct H as (U & ps & F & ->). apply usable_ok in U. rewrite U. cbn [bind].
    assert (M : mapM (fun q => do p <- image_to_world c i (X q) (Y q) (Z_ q); Ok [X p; Y p; Z_ p]) qs = Ok (map triple ps)) by (apply mapM_Forall2, points_split; exists ps; split; [exact F|reflexivity]).
    rewrite M. cbn [bind]. unfold output_tensor. rewrite (Forall2_len _ _ _ F). reflexivity.
Qed.

(** Points at rest. *)
Lemma mapM_same {A B} (f g : A -> result B) l : (forall a, In a l -> f a = g a) -> mapM f l = mapM g l.
Proof. induction l as [|a l IH]; intros H; [reflexivity|]. cbn [mapM]. rewrite (H a (or_introl eq_refl)). rewrite IH; [reflexivity|]. intros b Hb. apply H. right. exact Hb. Qed.
Lemma rest_row n k : (k < n)%nat -> forall t, table t (repeat (0, 0, 0) n) -> coordinate t k = Ok (0, 0, 0).
Proof.
  intros H t T. replace n with (k + S (n - S k))%nat in T by lia. rewrite repeat_app in T. cbn [repeat] in T. apply coordinate_table in T. rewrite repeat_length in T. exact T.
Qed.
Theorem at_rest : forall d inp velocity n, nth_error (dims (input_coordinate inp)) 0 = Some n -> table velocity (repeat (0, 0, 0) n) ->
  world_to_image_moving_point_op d inp velocity = world_to_image_op d inp.
Proof.
  intros d inp velocity n Hn T. unfold world_to_image_moving_point_op, world_to_image_op. destruct (parse_input inp) as [[c i]|e]; [|reflexivity]. cbn [bind].
  destruct (prepare_projection c i) as [[]|e]; [|reflexivity]. cbn [bind]. unfold dim_size at 1 3. rewrite Hn. cbn [bind].
  destruct (dim_size (input_coordinate inp) 1) as [m|e]; [|reflexivity]. cbn [bind]. destruct (check_eq 3 m) as [[]|e]; [|reflexivity]. cbn [bind].
  f_equal. apply mapM_same. intros k Hk. apply in_seq in Hk. rewrite (rest_row n k ltac:(lia) velocity T). reflexivity.
Qed.

(** Shapes. *)
Lemma rows_length {A B} (f : A -> result (list B)) w l rows : (forall a row, f a = Ok row -> length row = w) -> mapM f l = Ok rows -> length (concat rows) = (length l * w)%nat.
Proof.
  intros H M. apply mapM_Forall2 in M. induction M as [|a row l rows E F IH]; [reflexivity|]. cbn [concat length]. rewrite app_length, IH, (H a row E). lia.
Qed.
Lemma row_length d r : length (output_row d r) = out_channel d.
Proof. destruct d; reflexivity. Qed.
Lemma shape_of n w (rows : list (list R)) : length (concat rows) = (n * w)%nat -> whole (output_tensor n w rows).
Proof. intros H. unfold whole, output_tensor. cbn [dims cells fold_right]. rewrite H. lia. Qed.
Theorem declared : forall d inp out, world_to_image_op d inp = Ok out ->
  whole out /\ (d = true \/ length (dims (input_coordinate inp)) = 2%nat -> dims out = declared_shape d inp).
Proof.
  intros d inp out H. unfold world_to_image_op in H. apply bind_ok in H as ([c i] & _ & H). apply bind_ok in H as (u & _ & H). apply bind_ok in H as (n & D0 & H).
  apply bind_ok in H as (m & D1 & H). apply bind_ok in H as (u' & C & H). apply check_ok in C. subst m. apply bind_ok in H as (rows & M & H). injection H as <-.
  apply dim_1 in D1 as (n' & l & D). unfold dim_size in D0. rewrite D in D0. cbn [nth_error] in D0. injection D0 as ->. split.
  - apply shape_of. apply rows_length with (w := out_channel d) in M; [rewrite seq_length in M; exact M|].
    intros a row E. apply bind_ok in E as (p & _ & E). apply bind_ok in E as (r & _ & E). injection E as <-. apply row_length.
  - unfold declared_shape, output_tensor. rewrite D. cbn [dims length]. destruct d; intros [H|H]; try reflexivity; try discriminate H; destruct l; try discriminate H; reflexivity.
Qed.
Theorem declared_moving : forall d inp velocity out, world_to_image_moving_point_op d inp velocity = Ok out ->
  whole out /\ (d = true \/ length (dims (input_coordinate inp)) = 2%nat -> dims out = declared_shape d inp).
Proof.
  intros d inp velocity out H. unfold world_to_image_moving_point_op in H. apply bind_ok in H as ([c i] & _ & H). apply bind_ok in H as (u & _ & H). apply bind_ok in H as (n & D0 & H).
  apply bind_ok in H as (m & D1 & H). apply bind_ok in H as (u' & C & H). apply check_ok in C. subst m. apply bind_ok in H as (rows & M & H). injection H as <-.
  apply dim_1 in D1 as (n' & l & D). unfold dim_size in D0. rewrite D in D0. cbn [nth_error] in D0. injection D0 as ->. split.
  - apply shape_of. apply rows_length with (w := out_channel d) in M; [rewrite seq_length in M; exact M|].
    intros a row E. apply bind_ok in E as (p & _ & E). apply bind_ok in E as (v & _ & E). apply bind_ok in E as (r & _ & E). injection E as <-. apply row_length.
  - unfold declared_shape, output_tensor. rewrite D. cbn [dims length]. destruct d; intros [H|H]; try reflexivity; try discriminate H; destruct l; try discriminate H; reflexivity.
Qed.
(** Wrong shapes end the program. *)
Lemma coordinate_dims t k v : coordinate t k = Ok v -> exists a b, dims t = [a; b].
Proof. intros H. apply bind_ok in H as (a & E & _). apply matrix_dims in E. exact E. Qed.
Theorem shapes_checked : forall d inp out, whole (in_extrinsic inp) -> whole (in_intrinsic inp) -> whole (in_metadata inp) -> whole (in_image_metadata inp) ->
  world_to_image_op d inp = Ok out \/ image_to_world_op inp = Ok out \/ (exists v, world_to_image_moving_point_op d inp v = Ok out) ->
  exists c i n rest, describes inp c i /\ usable c i /\ dims (input_coordinate inp) = n :: 3%nat :: rest /\ (n = 0%nat \/ rest = []).
Proof.
  intros d inp out W1 W2 W3 W4 H.
  assert (G : exists c i n, parse_input inp = Ok (c, i) /\ prepare_projection c i = Ok tt /\ dim_size (input_coordinate inp) 0 = Ok n /\ dim_size (input_coordinate inp) 1 = Ok 3%nat
    /\ (n = 0%nat \/ exists v, coordinate (input_coordinate inp) 0 = Ok v)).
  { destruct H as [H|[H|[v H]]]; [unfold world_to_image_op in H|unfold image_to_world_op in H|unfold world_to_image_moving_point_op in H];
      apply bind_ok in H as ([c i] & P & H); apply bind_ok in H as ([] & U & H); apply bind_ok in H as (n & D0 & H); apply bind_ok in H as (m & D1 & H);
      apply bind_ok in H as (u' & C & H); apply check_ok in C; subst m; apply bind_ok in H as (rows & M & H); exists c, i, n;
      (split; [exact P|]; split; [exact U|]; split; [exact D0|]; split; [exact D1|]; destruct n as [|n]; [left; reflexivity|right];
       change (seq 0 (S n)) with (0%nat :: seq 1 n) in M; apply mapM_head_ok in M as (b & M); apply bind_ok in M as (w & M & _); exists w; exact M). }
  destruct G as (c & i & n & P & U & D0 & D1 & R). apply dim_1 in D1 as (n' & rest & D). unfold dim_size in D0. rewrite D in D0. cbn [nth_error] in D0. injection D0 as ->.
  exists c, i, n, rest. split; [apply parse_describes; assumption|]. split; [apply usable_ok; exact U|]. split; [exact D|].
  destruct R as [->|[v R]]; [left; reflexivity|right]. apply coordinate_dims in R as (a & b & R). rewrite D in R. injection R as _ R. destruct rest; [reflexivity|discriminate].
Qed.

(** There and back with a lens without distortion and a global shutter. *)
Theorem there_and_back : forall inp c i qs, describes inp c i -> rolling_shutter_direction c = GlobalShutter -> solid_frames c i -> sane c -> plain c ->
  table (input_coordinate inp) qs -> Forall (fun q => 0 < Z_ q) qs ->
  exists points, image_to_world_op inp = Ok points /\
    world_to_image_op true {| in_extrinsic := in_extrinsic inp; in_intrinsic := in_intrinsic inp; in_metadata := in_metadata inp; in_image_metadata := in_image_metadata inp; input_coordinate := points |}
    = Ok {| dims := [length qs; 4%nat]; cells := concat (map (fun q => [X q; Y q; Z_ q; 1]) qs) |}.
Proof.
  intros inp c i qs D G S N P T Q.
  assert (A : exists ps, Forall2 (fun q p => image_to_world c i (X q) (Y q) (Z_ q) = Ok p /\ world_to_image c i false {| ok := false; pixel := (0, 0); depth := 0 |} p
     = Ok {| ok := true; pixel := (X q, Y q); depth := Z_ q |}) qs ps).
  { clear T. induction Q as [|q qs Hq Q IH]; [exists []; constructor|]. destruct IH as (ps & F).
    destruct (plain_lens_inverse c N P) as (I1 & _). destruct (I1 (X q, Y q)) as (n & E & E2). cbn [fst snd] in E.
    pose proof (pixel_of_a_direction c n) as (Tr & Un). assert (TR : trusted c n).
    { unfold trusted, lens_factor. destruct P as (-> & -> & _ & _ & ->). lra. }
    specialize (Tr TR). rewrite E2 in Tr. assert (Tr' : (X q, Y q) = pixel_of c n) by congruence. clear Tr. rename Tr' into Tr.
    destruct (global_round_trip c i false {| ok := false; pixel := (0, 0); depth := 0 |} (X q, Y q) n (Z_ q) G S Hq E TR (eq_sym Tr)) as (p & p' & B1 & _ & B2 & _).
    exists (p :: ps). constructor; [split; [exact B1|exact B2]|exact F]. }
  destruct A as (ps & F).
  assert (U : usable c i) by (left; exact G).
  assert (F1 : Forall2 (fun q p => image_to_world c i (X q) (Y q) (Z_ q) = Ok p) qs ps) by (clear - F; induction F as [|q p qs ps [E _] F IH]; constructor; assumption).
  exists {| dims := [length ps; 3%nat]; cells := concat (map triple ps) |}. split.
  - apply (world_points inp c i qs _ D T). split; [exact U|]. exists ps. split; [exact F1|reflexivity].
  - apply (world_rows _ c i ps true); [exact D|reflexivity|]. split; [exact U|].
    exists (map (fun q => {| ok := true; pixel := (X q, Y q); depth := Z_ q |}) qs), (map (fun q => [X q; Y q; Z_ q; 1]) qs). split; [|split].
    + clear - F. induction F as [|q p qs ps [_ E] F IH]; [constructor|]. cbn [map]. constructor; assumption.
    + clear. induction qs as [|q qs IH]; [constructor|]. cbn [map]. constructor; [reflexivity|exact IH].
    + rewrite (Forall2_len _ _ _ F1). reflexivity.
Qed.

(** Velocities without the third number are read across the rows. *)
Theorem velocity_width_refuted : exists narrow wide : tensor R, whole narrow /\ dims narrow = [3; 2]%nat /\ cells narrow = [0; 0; 5; 0; 0; 0]
  /\ table wide [(0, 0, 5); (5, 0, 0)]
  /\ forall d inp, nth_error (dims (input_coordinate inp)) 0 = Some 2%nat -> world_to_image_moving_point_op d inp narrow = world_to_image_moving_point_op d inp wide.
Proof.
  exists {| dims := [3; 2]%nat; cells := [0; 0; 5; 0; 0; 0] |}, {| dims := [2; 3]%nat; cells := [0; 0; 5; 5; 0; 0] |}.
  split; [reflexivity|]. split; [reflexivity|]. split; [reflexivity|]. split; [reflexivity|]. intros d inp Hn. unfold world_to_image_moving_point_op.
  destruct (parse_input inp) as [[c i]|e]; [|reflexivity]. cbn [bind]. destruct (prepare_projection c i) as [[]|e]; [|reflexivity]. cbn [bind].
  unfold dim_size at 1 3. rewrite Hn. cbn [bind]. destruct (dim_size (input_coordinate inp) 1) as [m|e]; [|reflexivity]. cbn [bind]. destruct (check_eq 3 m) as [[]|e]; [|reflexivity]. cbn [bind].
  f_equal.
Qed.
(** The direction of the shutter has to be known even without points. *)
Theorem unknown_direction : forall d inp c i velocity, describes inp c i -> rolling_shutter_direction c = Unknown ->
  world_to_image_op d inp = Err RuntimeError /\ world_to_image_moving_point_op d inp velocity = Err RuntimeError /\ image_to_world_op inp = Err RuntimeError.
Proof.
  intros d inp c i velocity D E. assert (U : prepare_projection c i = Err RuntimeError).
  { unfold prepare_projection. rewrite E. unfold prepare_rolling. rewrite E. reflexivity. }
  unfold world_to_image_op, world_to_image_moving_point_op, image_to_world_op. rewrite (parse_described _ _ _ D). cbn [bind]. rewrite U. repeat split.
Qed.

(** Every failure ends the program. *)
Definition ends {A} (r : result A) : Prop := forall e, r = Err e -> e = RuntimeError.
Lemma ends_ok {A} (a : A) : ends (Ok a).
Proof. intros e H. discriminate H. Qed.
Lemma ends_err {A} : ends (@Err A RuntimeError).
Proof. intros e H. congruence. Qed.
Lemma ends_bind {A B} (r : result A) (f : A -> result B) : ends r -> (forall a, ends (f a)) -> ends (do a <- r; f a).
Proof. intros H K. destruct r as [a|e]; cbn [bind]; [apply K|]. intros e' E. apply H. congruence. Qed.
Lemma ends_mapM {A B} (f : A -> result B) l : (forall a, ends (f a)) -> ends (mapM f l).
Proof. intros H. induction l as [|a l IH]; cbn [mapM]; [apply ends_ok|]. apply ends_bind; [apply H|]. intros b. apply ends_bind; [exact IH|]. intros bs. apply ends_ok. Qed.
Ltac fin := first [apply ends_ok | apply ends_err].
Lemma ends_iterate fuel c m a b : forall u v, ends (iterate_undistortion fuel c m a b u v).
Proof.
  induction fuel as [|fuel IH]; intros u v; cbn [iterate_undistortion]; [fin|]. apply ends_bind; [unfold undistortion_step; cbv zeta; destruct (is_zero _); fin|].
  intros next. cbv zeta. destruct (rltb _ _); [fin|apply IH].
Qed.
Lemma ends_direction c u v : ends (image_to_direction c u v).
Proof. unfold image_to_direction. destruct (_ || _)%bool; [fin|apply ends_iterate]. Qed.
Lemma ends_rolling c i : ends (prepare_rolling c i).
Proof.
  unfold prepare_rolling. cbv zeta. apply ends_bind; [unfold pixel_timestamp; destruct (rolling_shutter_direction c); fin|]. intros t.
  apply ends_bind; [destruct (is_horizontal _); (apply ends_bind; [apply ends_direction|intros a; apply ends_bind; [apply ends_direction|intros b; fin]])|]. intros r. fin.
Qed.
Lemma ends_solve fuel s p v : forall t r, ends (solve fuel s p v t r).
Proof.
  induction fuel as [|fuel IH]; intros t r; cbn [solve]; [fin|]. destruct (rltb _ _); [|fin]. destruct (compute_depth_residual_and_jacobian s p v t) as [e|]; [|fin].
  destruct (is_zero _); [fin|apply IH].
Qed.
Lemma ends_project c i b before p v : ends (world_to_image_moving c i b before p v).
Proof.
  unfold world_to_image_moving. destruct (rolling_shutter_direction c); try fin; (apply ends_bind; [apply ends_rolling|]; intros s; unfold rolling_project; apply ends_bind; [apply ends_solve|];
    intros [[t l]|]; [|fin]; destruct (rltb _ _); [fin|]; destruct (compute_depth_residual_and_jacobian s p v t); fin).
Qed.
Lemma ends_unproject c i u v d : ends (image_to_world c i u v d).
Proof.
  unfold image_to_world. destruct (rolling_shutter_direction c); try (unfold unproject; apply ends_bind; [apply ends_direction|intros n; fin]);
    (apply ends_bind; [apply ends_rolling|]; intros s; unfold rolling_unproject; cbv zeta; apply ends_bind; [apply ends_direction|intros n; fin]).
Qed.
Lemma ends_dim {A} (t : tensor A) k : ends (dim_size t k).
Proof. unfold dim_size. destruct (nth_error _ _); fin. Qed.
Lemma ends_check a b : ends (check_eq a b).
Proof. unfold check_eq. destruct (Nat.eqb a b); fin. Qed.
Lemma ends_read {A} (t : tensor A) k : ends (read t k).
Proof. unfold read. destruct (nth_error _ _); fin. Qed.
Lemma ends_vec {A} (t : tensor A) k : ends (vec_at t k).
Proof. unfold vec_at. destruct (dims t) as [|? [|? ?]]; try fin. apply ends_read. Qed.
Lemma ends_matrix {A} (t : tensor A) a b : ends (matrix_at t a b).
Proof. unfold matrix_at. destruct (dims t) as [|? [|? [|? ?]]]; try fin. apply ends_read. Qed.
Lemma ends_coordinate t k : ends (coordinate t k).
Proof. unfold coordinate. do 3 (apply ends_bind; [apply ends_matrix|]; intros ?). fin. Qed.
Lemma ends_parse inp : ends (parse_input inp).
Proof.
  unfold parse_input. repeat (apply ends_bind; [first [apply ends_dim | apply ends_check | apply ends_vec | apply ends_mapM; intros k; first [apply ends_matrix | apply ends_vec]]|]; intros ?). cbv zeta. fin.
Qed.
Lemma ends_prepare c i : ends (prepare_projection c i).
Proof. unfold prepare_projection. destruct (rolling_shutter_direction c); try fin; (apply ends_bind; [apply ends_rolling|intros s; fin]). Qed.
Theorem failures : forall d inp velocity e,
  world_to_image_op d inp = Err e \/ world_to_image_moving_point_op d inp velocity = Err e \/ image_to_world_op inp = Err e -> e = RuntimeError.
Proof.
  intros d inp velocity e.
  assert (H1 : ends (world_to_image_op d inp)).
  { unfold world_to_image_op. apply ends_bind; [apply ends_parse|]. intros [c i]. apply ends_bind; [apply ends_prepare|]. intros _. apply ends_bind; [apply ends_dim|]. intros n.
    apply ends_bind; [apply ends_dim|]. intros m. apply ends_bind; [apply ends_check|]. intros _. apply ends_bind; [|intros rows; fin]. apply ends_mapM. intros k.
    apply ends_bind; [apply ends_coordinate|]. intros p. apply ends_bind; [apply ends_project|]. intros r. fin. }
  assert (H2 : ends (world_to_image_moving_point_op d inp velocity)).
  { unfold world_to_image_moving_point_op. apply ends_bind; [apply ends_parse|]. intros [c i]. apply ends_bind; [apply ends_prepare|]. intros _. apply ends_bind; [apply ends_dim|]. intros n.
    apply ends_bind; [apply ends_dim|]. intros m. apply ends_bind; [apply ends_check|]. intros _. apply ends_bind; [|intros rows; fin]. apply ends_mapM. intros k.
    apply ends_bind; [apply ends_coordinate|]. intros p. apply ends_bind; [apply ends_coordinate|]. intros v. apply ends_bind; [apply ends_project|]. intros r. fin. }
  assert (H3 : ends (image_to_world_op inp)).
  { unfold image_to_world_op. apply ends_bind; [apply ends_parse|]. intros [c i]. apply ends_bind; [apply ends_prepare|]. intros _. apply ends_bind; [apply ends_dim|]. intros n.
    apply ends_bind; [apply ends_dim|]. intros m. apply ends_bind; [apply ends_check|]. intros _. apply ends_bind; [|intros rows; fin]. apply ends_mapM. intros k.
    apply ends_bind; [apply ends_coordinate|]. intros p. apply ends_bind; [apply ends_unproject|]. intros r. fin. }
  intros [H|[H|H]]; [apply (H1 _ H)|apply (H2 _ H)|apply (H3 _ H)].
Qed.
