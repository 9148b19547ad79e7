(** C130: the colors of camera segmentation labels. *)
From Verif Require Import Base ResultLib RgbModel RgbSpec RgbProofs.
Open Scope Z_scope.
Open Scope list_scope.
(** A color map holds each listed color at its class, ends at the largest class and is black elsewhere. *)
Theorem C130_map_rows d : class_colors d -> d <> [] ->
  exists m, generate_color_map (Some d) = Ok m /\
    (forall k c, In (k, c) d -> selects m k c) /\
    (forall k, In k (map fst d) -> k < Z.of_nat (length m)) /\ In (Z.of_nat (length m) - 1) (map fst d) /\
    (forall i, (i < length m)%nat -> ~ In (Z.of_nat i) (map fst d) -> nth_error m i = Some (0, 0, 0)).
Proof. exact (map_rows d). Qed.
Print Assumptions C130_map_rows.
(** Without classes there is no map. *)
Theorem C130_empty_map : generate_color_map (Some []) = Err ValueError.
Proof. exact (empty_map ). Qed.
Print Assumptions C130_empty_map.
(** The default map, class by class. *)
Theorem C130_default_map : generate_color_map None = Ok
  [(0, 0, 0); (102, 102, 102); (0, 0, 142); (0, 0, 70); (0, 60, 100); (61, 133, 198); (119, 11, 32); (0, 0, 230); (111, 168, 220); (220, 20, 60);
   (255, 0, 0); (180, 0, 0); (127, 96, 0); (91, 15, 0); (230, 145, 56); (153, 153, 153); (234, 153, 153); (246, 178, 107); (250, 170, 30); (70, 70, 70);
   (128, 64, 128); (234, 209, 220); (217, 210, 233); (244, 35, 232); (107, 142, 35); (70, 130, 180); (102, 102, 102); (102, 102, 102); (102, 102, 102)].
Proof. exact (default_map ). Qed.
Print Assumptions C130_default_map.
(** Two default classes have the same color exactly when they are the same or both among undefined, ground, dynamic and static. *)
Theorem C130_same_color_refuted m : generate_color_map None = Ok m -> forall i j c, nth_error m i = Some c ->
  (nth_error m j = Some c <-> i = j \/ (In i [1; 26; 27; 28]%nat /\ In j [1; 26; 27; 28]%nat)).
Proof. exact (same_color m). Qed.
Print Assumptions C130_same_color_refuted.
(** Each pixel gets the color of its own class, with or without the channel axis. *)
Theorem C130_semantic_pixels w rows m : w <> 1%nat ->
  (forall y x k, pixel rows y x k -> in_map m k) ->
  exists out, semantic_label_to_rgb (A2 w rows) m = Ok (C2 out) /\ semantic_label_to_rgb (A3 w rows) m = Ok (C2 out) /\
    same_shape rows out /\ forall y x k c, pixel rows y x k -> selects m k c -> pixel out y x c.
Proof. exact (semantic_pixels w rows m). Qed.
Print Assumptions C130_semantic_pixels.
(** One label outside the map and there is no image. *)
Theorem C130_unknown_class a m y x k rows w : (a = A2 w rows \/ a = A3 w rows) -> pixel rows y x k -> ~ in_map m k ->
  semantic_label_to_rgb a m = Err IndexError.
Proof. exact (semantic_unknown a m y x k rows w). Qed.
Print Assumptions C130_unknown_class.
(** An image one pixel wide loses its width. *)
Theorem C130_narrow_semantic_refuted rows m : rectangular 1 rows -> (forall y x k, pixel rows y x k -> in_map m k) ->
  exists out, semantic_label_to_rgb (A2 1 rows) m = Ok (C1 out) /\ length out = length rows /\
    forall y k c, pixel rows y 0 k -> selects m k c -> nth_error out y = Some c.
Proof. exact (narrow_semantic rows m). Qed.
Print Assumptions C130_narrow_semantic_refuted.
(** Each pixel of an instance gets the color of its class with the green shifted by the instance; others keep theirs. *)
Theorem C130_panoptic_pixels w sem ins m t : w <> 1%nat -> numpy_integer t -> same_shape sem ins ->
  (forall c, In c m -> bytes c) -> (forall y x k, pixel sem y x k -> in_map m k) ->
  exists out, panoptic_label_to_rgb (A2 w sem) (A2 w ins) m t 41 50 = Ok (C2 out) /\
    panoptic_label_to_rgb (A3 w sem) (A3 w ins) m t 41 50 = Ok (C2 out) /\ same_shape sem out /\
    forall y x k i c, pixel sem y x k -> pixel ins y x i -> selects m k c -> fits t (41 * i) ->
      pixel out y x (red c, if 0 <? i then (shifted_green (green c) i) mod 256 else green c, blue c).
Proof. exact (panoptic_pixels w sem ins m t). Qed.
Print Assumptions C130_panoptic_pixels.
(** Instances of an image one pixel wide always fail. *)
Theorem C130_narrow_panoptic_refuted sem ins m t p d a b : rectangular 1 sem -> (a = A2 1 sem \/ a = A3 1 sem) -> (b = A2 1 ins \/ b = A3 1 ins) ->
  panoptic_label_to_rgb a b m t p d = Err IndexError.
Proof. exact (narrow_panoptic sem ins m t p d a b). Qed.
Print Assumptions C130_narrow_panoptic_refuted.
(** Labels of different sizes are refused. *)
Theorem C130_sizes w w' sem ins m t p d : w <> 1%nat -> w' <> 1%nat -> ~ same_shape sem ins ->
  (forall y x k, pixel sem y x k -> in_map m k) ->
  panoptic_label_to_rgb (A2 w sem) (A2 w' ins) m t p d = Err ValueError /\ panoptic_label_to_rgb (A3 w sem) (A3 w' ins) m t p d = Err ValueError.
Proof. exact (sizes_differ w w' sem ins m t p d). Qed.
Print Assumptions C130_sizes.
(** Two instances of a class look the same exactly when they differ by a multiple of 100. *)
Theorem C130_instances_apart g i j : byte g -> 0 < i -> 0 < j ->
  ((shifted_green g i) mod 256 = (shifted_green g j) mod 256 <-> i mod 100 = j mod 100).
Proof. exact (instances_apart g i j). Qed.
Print Assumptions C130_instances_apart.
(** The green is the shifted green cut to the range exactly when nothing is to be cut. *)
Theorem C130_clipped_iff g i : byte g ->
  ((shifted_green g i) mod 256 = Z.min (Z.max (shifted_green g i) 0) 255 <-> 0 <= shifted_green g i <= 255).
Proof. exact (clipped_iff g i). Qed.
Print Assumptions C130_clipped_iff.
(** A dark green wraps around rather than being cut. *)
Theorem C130_clip_refuted : exists m, generate_color_map None = Ok m /\
  selects m 9 (220, 20, 60) /\ shifted_green 20 5 = -25 /\
  panoptic_label_to_rgb (A2 2 [[9; 9]]) (A2 2 [[5; 0]]) m {| signed := true; bits := 32 |} PRIME_NUM MAX_DELTA = Ok (C2 [[(220, 231, 60); (220, 20, 60)]]).
Proof. exact (clip_refuted ). Qed.
Print Assumptions C130_clip_refuted.
(** With labels of one byte the shift itself is another. *)
Theorem C130_small_type_refuted : exists m, generate_color_map None = Ok m /\
  ~ fits {| signed := false; bits := 8 |} (41 * 7) /\ shifted_green 60 7 = 97 /\
  panoptic_label_to_rgb (A2 2 [[4; 4]]) (A2 2 [[7; 7]]) m {| signed := false; bits := 8 |} PRIME_NUM MAX_DELTA = Ok (C2 [[(0, 41, 100); (0, 41, 100)]]).
Proof. exact (small_type_refuted ). Qed.
Print Assumptions C130_small_type_refuted.

(** Three classes, an image of two by two pixels with two instances. *)
Example C130_nonvacuous :
  let d := [(2, (10, 60, 30)); (0, (1, 2, 3))] in
  class_colors d /\ d <> [] /\
  match generate_color_map (Some d) with
  | Ok m => m = [(1, 2, 3); (0, 0, 0); (10, 60, 30)] /\
      (forall c, In c m -> bytes c) /\ (forall y x k, pixel [[2; 2]; [0; -1]] y x k -> in_map m k) /\
      same_shape [[2; 2]; [0; -1]] [[1; 101]; [0; 3]] /\ numpy_integer {| signed := true; bits := 32 |} /\ fits {| signed := true; bits := 32 |} (41 * 101) /\
      panoptic_label_to_rgb (A2 2 [[2; 2]; [0; -1]]) (A2 2 [[1; 101]; [0; 3]]) m {| signed := true; bits := 32 |} 41 50 =
        Ok (C2 [[(10, 51, 30); (10, 51, 30)]; [(1, 2, 3); (10, 33, 30)]])
  | Err _ => False
  end.
Proof.
  cbv zeta. assert (forall a b c, 0 <= a < 256 -> 0 <= b < 256 -> 0 <= c < 256 -> bytes (a, b, c)) as B by (intros a b c Ha Hb Hc; split; [exact Ha|split; [exact Hb|exact Hc]]).
  split.
  { split.
    - cbn [map fst]. constructor; [cbn [In]; lia|]. constructor; [intros []|constructor].
    - intros k c [Q|[Q|[]]]; injection Q as <- <-; (split; [lia|apply B; lia]). }
  split; [discriminate|].
  change (generate_color_map (Some [(2, (10, 60, 30)); (0, (1, 2, 3))])) with (Ok [(1, 2, 3); (0, 0, 0); (10, 60, 30)]). cbv iota beta.
  split; [reflexivity|]. split; [intros c [<-|[<-|[<-|[]]]]; apply B; lia|].
  split.
  { intros y x k (r & Hr & Hk). unfold in_map. cbn [length]. apply nth_error_In in Hr, Hk. destruct Hr as [<-|[<-|[]]]; cbn [In] in Hk; lia. }
  split; [reflexivity|]. split; [right; right; now left|]. split; [unfold fits; cbn; lia|]. reflexivity.
Qed.
