(** The properties of panoptic label handling. *)
From Coq Require Import String.
From Verif Require Import Base PanopticModel PanopticSpec PanopticProofs.
Open Scope Z_scope.

(** * C26 *)
Theorem C26_encode_then_decode : forall d l, 0 < d -> (forall p, In p l -> fits d (fst p) (snd p)) -> decode d (encode d l) = Ok l.
Proof. exact round_trip. Qed.
Print Assumptions C26_encode_then_decode.
Theorem C26_decode_then_encode : forall d l sl, (forall p, In p l -> 0 <= p < 4294967296) -> decode d l = Ok sl -> encode d sl = l.
Proof. exact round_trip_back. Qed.
Print Assumptions C26_decode_then_encode.
Theorem C26_instance_at_divisor_is_next_class : forall d sem, 0 < d -> 0 <= sem -> (sem + 2) * d <= 4294967296 ->
  decode d [encode_pixel d sem d] = Ok [(sem + 1, 0)].
Proof. exact at_divisor. Qed.
Print Assumptions C26_instance_at_divisor_is_next_class.
Example C26_hypotheses_met : fits 1000 28 999 /\ decode 1000 (encode 1000 [(28, 999); (0, 0)]) = Ok [(28, 999); (0, 0)] /\ encode 1000 [(28, 999)] = [28999].
Proof. vm_compute. intuition congruence. Qed.

(** * C27 *)
Theorem C27_lookup_exactly_mentioned : forall sq l r s g, remap_global_ids sq l = Ok r -> (exists v, lookup r s g = Ok v) <-> mentioned l s g.
Proof. exact lookup_total. Qed.
Print Assumptions C27_lookup_exactly_mentioned.
Theorem C27_distinct_objects_distinct_instances : forall sq l r, (forall s g, mentioned l s g -> 1 <= g) -> remap_global_ids sq l = Ok r ->
  forall s g v, lookup r s g = Ok v -> 1 <= v /\ forall s' g', lookup r s' g' = Ok v -> s' = s /\ g' = g.
Proof. exact remap_distinct. Qed.
Print Assumptions C27_distinct_objects_distinct_instances.
Theorem C27_sequential_instances_are_consecutive : forall l r, (forall s g, mentioned l s g -> 1 <= g) -> remap_global_ids true l = Ok r -> r <> [] ->
  exists n, 1 <= n /\ forall k, 1 <= k <= n <-> exists s g, lookup r s g = Ok k.
Proof. exact remap_consecutive. Qed.
Print Assumptions C27_sequential_instances_are_consecutive.
Theorem C27_decoding_succeeds : forall sq l d, l <> [] -> (forall f, In f l -> good_label f /\ sl_div f = d) -> (forall s g, mentioned l s g -> 0 <= g) ->
  exists out D, decode_multi true sq None l = Ok (out, D).
Proof. exact decode_multi_succeeds. Qed.
Print Assumptions C27_decoding_succeeds.
(** Every output pixel is the encoding of the pixel's own class and the instance it shows. *)
Theorem C27_pixels : forall sq new l out D, (forall f, In f l -> good_label f) -> decode_multi true sq new l = Ok (out, D) ->
  exists r, remap_global_ids sq l = Ok r /\ List.length out = List.length l /\
  forall i f, nth_error l i = Some f -> exists ps ts cs, nth_error out i = Some (ps, ts, cs) /\ List.length ps = List.length (sl_pixels f) /\
    forall j p, nth_error (sl_pixels f) j = Some p ->
      exists v tr, shows r f (p mod sl_div f) v tr /\ nth_error ts j = Some tr /\ nth_error ps j = Some (encode_pixel D (p / sl_div f) (cast (sl_div f) v)).
Proof. exact decode_multi_pixels. Qed.
Print Assumptions C27_pixels.
Theorem C27_pixel_recovered : forall d v D sem, 0 <= v < 65536 -> fits D sem v -> decode D [encode_pixel D sem (cast d v)] = Ok [(sem, v)].
Proof. exact pixel_recovered. Qed.
Print Assumptions C27_pixel_recovered.
(** The automatic divisor is never below an instance, and exceeds all of them exactly when the first label's divisor does. *)
Theorem C27_automatic_divisor : forall sq l out D r f0 l', l = f0 :: l' -> remap_global_ids sq l = Ok r -> decode_multi true sq None l = Ok (out, D) ->
  (forall s g v, lookup r s g = Ok v -> v <= D) /\
  ((forall s g v, lookup r s g = Ok v -> v < D) <-> (forall s g v, lookup r s g = Ok v -> v < sl_div f0)).
Proof. exact auto_divisor_iff. Qed.
Print Assumptions C27_automatic_divisor.

Definition lab (s : string) (d : Z) (m : list (Z * Z)) (px : list Z) : seg_label :=
  {| sl_seq := s; sl_div := d; sl_map := map (fun p => {| im_local := fst p; im_global := snd p; im_tracked := true |}) m; sl_pixels := px; sl_coverage := None |}.
(** With the automatic divisor an object of class 2 becomes class 3. *)
Theorem C27_automatic_divisor_keeps_classes_refuted : exists l out D, (forall f, In f l -> good_label f) /\
  decode_multi true false None l = Ok (out, D) /\ decode 10 (sl_pixels (hd (lab "" 1 [] []) l)) = Ok [(2, 1)] /\
  decode D (fst (fst (hd ([], [], []) out))) = Ok [(3, 0)].
Proof.
  exists [lab "a" 10 [(1, 12)] [21]], [([36], [true], [1])], 12. split; [|vm_compute; auto].
  intros f [<-|[]]. unfold good_label. cbn. split; [lia|]. split; [discriminate|]. intros p [<-|[]]. lia.
Qed.
Print Assumptions C27_automatic_divisor_keeps_classes_refuted.
(** An explicit divisor is checked against the ids before remapping only. *)
Theorem C27_explicit_divisor_is_checked_refuted : exists l out D, (forall f, In f l -> good_label f) /\
  decode_multi true false (Some D) l = Ok (out, D) /\ decode 10 (sl_pixels (hd (lab "" 1 [] []) l)) = Ok [(2, 1)] /\
  decode D (fst (fst (hd ([], [], []) out))) = Ok [(4, 5)].
Proof.
  exists [lab "a" 10 [(1, 25)] [21]], [([45], [true], [1])], 10. split; [|vm_compute; auto].
  intros f [<-|[]]. unfold good_label. cbn. split; [lia|]. split; [discriminate|]. intros p [<-|[]]. lia.
Qed.
Print Assumptions C27_explicit_divisor_is_checked_refuted.
(** Global ids from 65536 on wrap: two objects of one sequence become the same instance. *)
Theorem C27_large_global_ids_stay_apart_refuted : exists l out, (forall f, In f l -> good_label f) /\
  decode_multi true false (Some 100000) l = Ok (out, 100000) /\ decode 100000 (fst (fst (hd ([], [], []) out))) = Ok [(0, 1); (0, 1)].
Proof.
  exists [lab "a" 10 [(1, 1); (2, 65537)] [1; 2]], [([1; 1], [true; true], [1; 1])]. split; [|vm_compute; auto].
  intros f [<-|[]]. unfold good_label. cbn. split; [lia|]. split; [discriminate|]. intros p [<-|[<-|[]]]; lia.
Qed.
Print Assumptions C27_large_global_ids_stay_apart_refuted.
(** With a global id 0, objects of two sequences share an instance. *)
Theorem C27_global_id_zero_stays_apart_refuted : exists l r, remap_global_ids false l = Ok r /\ lookup r "a" 3 = lookup r "b" 0 /\ is_ok (lookup r "a" 3) = true.
Proof. exists [lab "a" 10 [(1, 3)] [1]; lab "b" 10 [(1, 0)] [1]]. eexists. split; [reflexivity|]. vm_compute. auto. Qed.
Print Assumptions C27_global_id_zero_stays_apart_refuted.
(** A local id without mapping keeps its value, which a mapped object may take as well. *)
Theorem C27_unmapped_instance_stays_apart_refuted : exists l out D, (forall f, In f l -> good_label f) /\
  decode_multi true false None l = Ok (out, D) /\ decode D (fst (fst (hd ([], [], []) out))) = Ok [(0, 2); (0, 2)].
Proof.
  exists [lab "a" 10 [(1, 2)] [1; 2]], [([2; 2], [true; false], [1; 1])], 10. split; [|vm_compute; auto].
  intros f [<-|[]]. unfold good_label. cbn. split; [lia|]. split; [discriminate|]. intros p [<-|[<-|[]]]; lia.
Qed.
Print Assumptions C27_unmapped_instance_stays_apart_refuted.
Example C27_hypotheses_met : exists l out D r, (forall f, In f l -> good_label f /\ sl_div f = 10) /\ (forall s g, mentioned l s g -> 1 <= g) /\
  decode_multi true true None l = Ok (out, D) /\ remap_global_ids true l = Ok r /\ lookup r "a" 7 = Ok 2 /\ lookup r "b" 3 = Ok 3 /\
  map (fun o => decode D (fst (fst o))) out = [Ok [(2, 2); (1, 1)]; Ok [(3, 3); (4, 0)]].
Proof.
  exists [lab "a" 10 [(1, 7); (2, 5)] [21; 12]; lab "b" 10 [(4, 3)] [34; 40]]. do 3 eexists.
  split. { intros f [<-|[<-|[]]]; (split; [|reflexivity]); unfold good_label; cbn; (split; [lia|]); (split; [discriminate|]); intros p [<-|[<-|[]]]; lia. }
  split. { intros s g (f & m & [<-|[<-|[]]] & _ & Hm & <-); cbn in Hm; intuition; subst m; cbn; lia. }
  split; [reflexivity|]. split; [reflexivity|]. vm_compute. auto.
Qed.

(** * C56 *)
Theorem C56_untracked_becomes_instance_zero : forall d y k, 0 < d -> List.length y = List.length k -> List.length (augment d y k) = List.length y /\
  forall j a b, nth_error y j = Some a -> nth_error k j = Some b ->
    exists c, nth_error (augment d y k) j = Some c /\ c / d = a / d /\ c mod d = if b =? 0 then 0 else a mod d.
Proof. exact augment_spec. Qed.
Print Assumptions C56_untracked_becomes_instance_zero.
Theorem C56_one_update_per_frame : forall d truth pred cov trk,
  (forall r, metric_updates d truth pred cov trk = Ok r -> List.length r = List.length truth /\
     forall i t y c k, nth_error truth i = Some t -> nth_error pred i = Some y -> nth_error cov i = Some c -> nth_error trk i = Some k ->
       nth_error r i = Some (augment d t k, y, map weight c)) /\
  (is_ok (metric_updates d truth pred cov trk) = true <-> List.length pred = List.length truth /\ List.length cov = List.length truth /\ List.length trk = List.length truth).
Proof. exact updates_spec. Qed.
Print Assumptions C56_one_update_per_frame.
Example C56_hypotheses_met : metric_updates 10 [[21; 32]] [[20; 31]] [[1; 2]] [[0; 1]] = Ok [([20; 32], [20; 31], [weight 1; weight 2])] /\ (weight 2 == 1 # 2)%Q.
Proof. vm_compute. auto. Qed.

(** * C57 *)
Theorem C57_loads_a_prefix_of_one_sequence : forall F k (frames : list (F * option string)), exists n,
  fst (load_frames k frames) = map fst (firstn n (labelled frames)) /\
  snd (load_frames k frames) = match labelled frames with [] => None | (_, s) :: _ => Some s end /\
  (n <= 1 \/ n <= k)%nat /\
  (forall i f s, nth_error (labelled frames) i = Some (f, s) -> (S i < n)%nat -> Some s = snd (load_frames k frames)) /\
  ((n < List.length (labelled frames))%nat -> (exists m f s, n = S m /\ nth_error (labelled frames) m = Some (f, s) /\ Some s <> snd (load_frames k frames)) \/ (1 <= n /\ k <= n)%nat).
Proof. exact @load_frames_spec. Qed.
Print Assumptions C57_loads_a_prefix_of_one_sequence.
(** The first frame of the next sequence is returned as well. *)
Theorem C57_loaded_frames_share_the_sequence_refuted : exists frames : list (nat * option string),
  load_frames 3 frames = ([1; 2]%nat, Some "a"%string) /\ In (2%nat, Some "b"%string) frames.
Proof. exists [(0, None); (1, Some "a"%string); (2, Some "b"%string); (3, Some "b"%string)]%nat. vm_compute. auto. Qed.
Print Assumptions C57_loaded_frames_share_the_sequence_refuted.
Example C57_keeps_first_k : load_frames 2 [(0, Some "a"); (1, None); (2, Some "a"); (3, Some "a")]%string%nat = ([0; 2]%nat, Some "a"%string).
Proof. reflexivity. Qed.

(** * C58 *)
Theorem C58_saved_label_decodes_to_the_original : forall d new s label f D out,
  (forall p, In p label -> 0 <= p /\ (p / d + 1) * sl_div f <= 4294967296) -> save_label d new s label = Ok f ->
  (forall p, In p label -> p mod d < D /\ p mod d < 65536 /\ (p / d + 1) * D <= 4294967296) ->
  decode_multi true false (Some D) [f] = Ok ([out], D) -> decode D (fst (fst out)) = decode d label.
Proof. exact save_then_decode. Qed.
Print Assumptions C58_saved_label_decodes_to_the_original.
Theorem C58_automatic_divisor_recovers_the_label_refuted : exists label f out D, save_label 10000 1000 "a" label = Ok f /\
  decode_multi true false None [f] = Ok ([out], D) /\ decode 10000 label = Ok [(2, 5000)] /\ decode D (fst (fst out)) = Ok [(3, 0)].
Proof. exists [25000]. do 3 eexists. split; [reflexivity|]. split; [reflexivity|]. vm_compute. auto. Qed.
Print Assumptions C58_automatic_divisor_recovers_the_label_refuted.
Theorem C58_classes_survive_a_large_divisor_refuted : exists label f, save_label 1 65536 "a" label = Ok f /\
  decode 1 label = Ok [(65536, 0)] /\ decode (sl_div f) (sl_pixels f) = Ok [(0, 0)].
Proof. exists [65536]. eexists. split; [reflexivity|]. vm_compute. auto. Qed.
Print Assumptions C58_classes_survive_a_large_divisor_refuted.
Example C58_hypotheses_met : exists f out, save_label 100000 1000 "a" [200003; 300000; 1200077] = Ok f /\
  (forall p, In p [200003; 300000; 1200077] -> (0 <= p /\ (p / 100000 + 1) * sl_div f <= 4294967296) /\ (p mod 100000 < 100 /\ p mod 100000 < 65536 /\ (p / 100000 + 1) * 100 <= 4294967296)) /\
  sl_pixels f = [2001; 3000; 12002] /\ decode_multi true false (Some 100) [f] = Ok ([out], 100) /\ decode 100 (fst (fst out)) = Ok [(2, 3); (3, 0); (12, 77)].
Proof.
  do 2 eexists. split; [reflexivity|]. split; [|split; [reflexivity|]; split; reflexivity].
  intros p [<-|[<-|[<-|[]]]]; vm_compute; intuition congruence.
Qed.
