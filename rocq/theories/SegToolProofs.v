(** Proofs about the segmentation tool. *)
From Coq Require Import String Sorting Permutation.
From Verif Require Import Base ResultLib SegModel SegSpec SegProofs ToolModel ToolProofs SegToolModel SegToolSpec.
Open Scope list_scope.
Open Scope Z_scope.
Arguments segmentation_types : simpl never.

Lemma types_nodup : NoDup segmentation_types.
Proof. apply no_duplicates_iff. vm_compute. reflexivity. Qed.
Lemma types_iff c : valid segmentation_types c = true <-> evaluated c.
Proof.
  rewrite valid_iff. unfold evaluated. split.
  - intros I. vm_compute in I. intuition lia.
  - intros [A B]. assert (K : forall z, 1 <= z <= 22 -> existsb (Z.eqb z) segmentation_types = true).
    { intros z H. assert (Z' : z = Z.of_nat (Z.to_nat z)) by lia. rewrite Z'. assert (L : (Z.to_nat z < 23)%nat) by lia. assert (G : (1 <= Z.to_nat z)%nat) by lia.
      revert L G. generalize (Z.to_nat z). intros n L G. do 23 (destruct n as [|n]; [try lia; vm_compute; reflexivity|]). lia. }
    specialize (K c (conj A B)). apply existsb_exists in K. destruct K as (x & I & E). apply Z.eqb_eq in E. subst x. exact I.
Qed.

(** ** Lookups *)
Fixpoint lookup (k : frame_id) (l : list seg_frame) : option seg_frame :=
  match l with
  | [] => None
  | f :: l' => match lookup k l' with Some g => Some g | None => if string_dec (context_name f) (fst k) then if Z.eq_dec (frame_timestamp f) (snd k) then Some f else None else None end
  end.
Lemma lookup_some k l : forall f, lookup k l = Some f -> last_with k l f.
Proof.
  induction l as [|g l IH]; intros f E; [discriminate|]. cbn [lookup] in E. destruct (lookup k l) as [h|] eqn:L.
  - injection E as <-. destruct (IH h eq_refl) as (a & b & -> & K & N). exists (g :: a), b. repeat split; assumption.
  - destruct (string_dec (context_name g) (fst k)) as [A|]; [|discriminate]. destruct (Z.eq_dec (frame_timestamp g) (snd k)) as [B|]; [|discriminate].
    injection E as <-. exists [], l. split; [reflexivity|]. split; [unfold id_of; destruct k; cbn [fst snd] in *; congruence|].
    clear IH. induction l as [|h l IH]; intros x []; cbn [lookup] in L; destruct (lookup k l); try discriminate.
    + subst x. intros <-. cbn [id_of fst snd] in L. destruct (string_dec (context_name h) (context_name h)) as [_|X]; [|exact (X eq_refl)].
      destruct (Z.eq_dec (frame_timestamp h) (frame_timestamp h)) as [_|X]; [discriminate|exact (X eq_refl)].
    + apply IH; [reflexivity|assumption].
Qed.
Lemma lookup_none k l : lookup k l = None -> forall f, In f l -> id_of f <> k.
Proof.
  induction l as [|h l IH]; intros L x []; cbn [lookup] in L; destruct (lookup k l); try discriminate.
  - subst x. intros <-. cbn [id_of fst snd] in L. destruct (string_dec (context_name h) (context_name h)) as [_|X]; [|exact (X eq_refl)].
    destruct (Z.eq_dec (frame_timestamp h) (frame_timestamp h)) as [_|X]; [discriminate|exact (X eq_refl)].
  - apply IH; [reflexivity|assumption].
Qed.
Lemma lookup_self f : lookup (id_of f) [f] = Some f.
Proof. cbn [lookup id_of fst snd]. destruct (string_dec _ _) as [_|X]; [|destruct X; reflexivity]. destruct (Z.eq_dec _ _) as [_|X]; [reflexivity|destruct X; reflexivity]. Qed.
Lemma lookup_app k a b : lookup k (a ++ b) = match lookup k b with Some g => Some g | None => lookup k a end.
Proof. induction a as [|f a IH]; cbn [app lookup]; [destruct (lookup k b); reflexivity|]. rewrite IH. destruct (lookup k b); [reflexivity|]. reflexivity. Qed.
Lemma lookup_absent k l : (forall f, In f l -> id_of f <> k) -> lookup k l = None.
Proof. intros H. destruct (lookup k l) as [f|] eqn:L; [|reflexivity]. destruct (lookup_some _ _ _ L) as (a & b & -> & K & _). destruct (H f); [apply in_or_app; right; left; reflexivity|exact K]. Qed.
Lemma last_lookup k l f : last_with k l f <-> lookup k l = Some f.
Proof.
  split; [|apply lookup_some]. intros (a & b & -> & K & N). rewrite lookup_app. change (f :: b) with ([f] ++ b). rewrite lookup_app, (lookup_absent k b N).
  rewrite <- K, lookup_self. reflexivity.
Qed.
Lemma map_get l : forall m k, StronglySorted (fun a b => pair_ltb a b = true) (map fst m) ->
  get pair_ltb k (fold_left (fun m f => upsert pair_ltb (get_key f) (fun _ => f) m) l m) = match lookup k l with Some f => Some f | None => get pair_ltb k m end.
Proof.
  induction l as [|f l IH]; intros m k S0; cbn [fold_left lookup]; [reflexivity|]. rewrite IH by (apply ord_upsert; [exact strict_pair|exact S0]).
  destruct (lookup k l); [reflexivity|]. destruct (string_dec (context_name f) (fst k)) as [A|A].
  - destruct (Z.eq_dec (frame_timestamp f) (snd k)) as [B|B].
    + assert (E : k = get_key f) by (unfold get_key; destruct k; cbn [fst snd] in *; congruence). rewrite E, get_upsert; [reflexivity|exact strict_pair|exact S0].
    + apply get_upsert_other; [exact strict_pair|exact S0|]. unfold get_key. intros <-. apply B. reflexivity.
  - apply get_upsert_other; [exact strict_pair|exact S0|]. unfold get_key. intros <-. apply A. reflexivity.
Qed.
Lemma frame_map_get l k : get pair_ltb k (frame_map l) = lookup k l.
Proof. unfold frame_map. rewrite map_get by constructor. destruct (lookup k l); reflexivity. Qed.
Lemma keys_spec l : StronglySorted (fun a b => pair_ltb a b = true) (all_example_keys l) /\
  forall k, In k (all_example_keys l) <-> exists f, In f l /\ id_of f = k.
Proof.
  assert (G : forall l (m : list (frame_id * unit)), StronglySorted (fun a b => pair_ltb a b = true) (map fst m) ->
    StronglySorted (fun a b => pair_ltb a b = true) (map fst (fold_left (fun m f => upsert pair_ltb (get_key f) (fun _ => tt) m) l m)) /\
    forall k, In k (map fst (fold_left (fun m f => upsert pair_ltb (get_key f) (fun _ => tt) m) l m)) <-> In k (map fst m) \/ exists f, In f l /\ id_of f = k).
  { clear l. induction l as [|f l IH]; intros m S0; cbn [fold_left].
    - split; [exact S0|]. intros k. split; [auto|]. intros [I|(f & [] & _)]. exact I.
    - destruct (IH (upsert pair_ltb (get_key f) (fun _ => tt) m)) as [A B]; [apply ord_upsert; [exact strict_pair|exact S0]|]. split; [exact A|].
      intros k. rewrite B, (keys_upsert pair_ltb strict_pair). split.
      + intros [[-> |I]|(g & I & K)]; [right; exists f; split; [left; reflexivity|reflexivity]|left; exact I|right; exists g; split; [right; exact I|exact K]].
      + intros [I|(g & [<- |I] & K)]; [left; right; exact I|left; left; symmetry; exact K|right; exists g; split; assumption]. }
  destruct (G l [] ltac:(constructor)) as [A B]. split; [exact A|]. intros k. unfold all_example_keys. rewrite B. cbn [map In]. split; [intros [[]|H]; exact H|auto].
Qed.

(** ** Verdicts *)
Definition read_both (g : laser) (pd : option laser) (r : laser -> option (list Z)) (n : nat) : result (list (Z * Z)) :=
  do d <- uncompress (r g);
  do p <- match pd with Some p => uncompress (r p) | None => Ok (create_empty_prediction n) end;
  if Nat.eqb (List.length p) (List.length d) then Ok (combine p d) else Err CheckFailed.
Definition points_of (g : laser) (pd : option laser) : result (list (Z * Z)) :=
  do d <- uncompress (ri_return1 g);
  do a <- read_both g pd ri_return1 (List.length d);
  do b <- read_both g pd ri_return2 (List.length d);
  Ok (a ++ b).
Lemma check_spec types m pd gt : check_update types m pd gt = if Nat.eqb (List.length pd) (List.length gt) then Ok (count_points types pd gt m) else Err CheckFailed.
Proof. unfold check_update, update. destruct (Nat.eqb _ _); reflexivity. Qed.
Lemma measure_points types m g pd pts : counts types m pts ->
  match points_of g pd with
  | Ok q => exists m', measure types m g pd = Ok m' /\ counts types m' (pts ++ q)
  | Err e => measure types m g pd = Err e
  end.
Proof.
  intros C. unfold points_of, measure, read_both. destruct (uncompress (ri_return1 g)) as [d1|e] eqn:D1; cbn [bind]; [|reflexivity].
  destruct (match pd with Some p => uncompress (ri_return1 p) | None => Ok (create_empty_prediction (List.length d1)) end) as [p1|e]; cbn [bind]; [|reflexivity].
  rewrite check_spec. destruct (Nat.eqb_spec (List.length p1) (List.length d1)) as [L1|L1]; cbn [bind]; [|reflexivity].
  destruct (uncompress (ri_return2 g)) as [d2|e]; cbn [bind]; [|reflexivity].
  destruct (match pd with Some p => uncompress (ri_return2 p) | None => Ok (create_empty_prediction (List.length d1)) end) as [p2|e]; cbn [bind]; [|reflexivity].
  rewrite check_spec. destruct (Nat.eqb_spec (List.length p2) (List.length d2)) as [L2|L2]; cbn [bind]; [|reflexivity].
  eexists. split; [reflexivity|]. rewrite app_assoc. apply count_points_ok; [exact L2|]. apply count_points_ok; [exact L1|exact C].
Qed.
Definition labelled (f : option seg_frame) : list laser := match f with Some f => segmentation_labels f | None => [] end.
(** What a frame contributes: [Ok None] if its lasers are not supported. *)
Definition judge (ls : list laser) (pd : option laser) : result (option (list (Z * Z))) :=
  match ls with
  | [] => Ok (Some [])
  | [g] => if is_top (name g) then do q <- points_of g pd; Ok (Some q) else Ok None
  | _ => Ok None
  end.
Fixpoint total (J : frame_id -> result (option (list (Z * Z)))) (ks : list frame_id) : result (option (list (Z * Z))) :=
  match ks with
  | [] => Ok (Some [])
  | k :: ks' =>
      do r <- J k;
      match r with
      | None => Ok None
      | Some p => do s <- total J ks'; Ok (match s with Some q => Some (p ++ q) | None => None end)
      end
  end.
Definition judge_key (pds gts : list seg_frame) (k : frame_id) := judge (labelled (lookup k gts)) (valid_prediction (lookup k pds)).
Lemma loop_total types pds gts ks : forall m pts, counts types m pts ->
  match total (judge_key pds gts) ks with
  | Ok (Some q) => exists m', loop types (frame_map pds) (frame_map gts) ks m = Ok (Some m') /\ counts types m' (pts ++ q)
  | Ok None => loop types (frame_map pds) (frame_map gts) ks m = Ok None
  | Err e => loop types (frame_map pds) (frame_map gts) ks m = Err e
  end.
Proof.
  induction ks as [|k ks IH]; intros m pts C; cbn [total loop]; [exists m; rewrite app_nil_r; split; [reflexivity|exact C]|].
  rewrite !frame_map_get. unfold judge_key at 1. destruct (lookup k gts) as [f|]; cbn [labelled judge bind].
  - destruct (segmentation_labels f) as [|g [|g' ls]]; cbn [judge bind].
    + specialize (IH m pts C). destruct (total (judge_key pds gts) ks) as [[q|]|e]; cbn [bind app]; exact IH.
    + destruct (is_top (name g)); cbn [bind]; [|reflexivity]. pose proof (measure_points types m g (valid_prediction (lookup k pds)) pts C) as M.
      destruct (points_of g (valid_prediction (lookup k pds))) as [p|e]; cbn [bind]; [|rewrite M; reflexivity].
      destruct M as (m' & -> & C'). cbn [bind]. specialize (IH m' _ C'). destruct (total (judge_key pds gts) ks) as [[q|]|e]; cbn [bind]; [|exact IH|exact IH].
      destruct IH as (m2 & E & C2). exists m2. split; [exact E|]. rewrite app_assoc. exact C2.
    + reflexivity.
  - specialize (IH m pts C). destruct (total (judge_key pds gts) ks) as [[q|]|e]; cbn [bind app]; exact IH.
Qed.
Lemma counts_value types m pts : NoDup types -> counts types m pts -> compute_iou types m = metrics_of types pts.
Proof.
  intros Hnd HC. unfold compute_iou. rewrite <- summarize_spec. f_equal.
  - apply (map_seq_nth _ (fun c => count (in_both c) pts) types 0). intros i Hi. now apply intersection_value with (types := types).
  - apply (map_seq_nth _ (fun c => count (in_either types c) pts) types 0). intros i Hi. now apply union_value.
Qed.
Theorem compute_total pds gts : compute pds gts = reported (total (judge_key pds gts) (all_example_keys (pds ++ gts))).
Proof.
  unfold compute, create. rewrite (proj2 (no_duplicates_iff _) types_nodup). cbn [bind].
  pose proof (loop_total segmentation_types pds gts (all_example_keys (pds ++ gts)) (zero_matrix (List.length segmentation_types + 1)) []) as L.
  assert (C : counts segmentation_types (zero_matrix (List.length segmentation_types + 1)) []) by exact (run_counts segmentation_types []).
  specialize (L C). destruct (total (judge_key pds gts) (all_example_keys (pds ++ gts))) as [[q|]|e]; cbn [reported].
  - destruct L as (m' & -> & C'). cbn [bind]. rewrite (counts_value _ _ _ types_nodup C'). reflexivity.
  - rewrite L. reflexivity.
  - rewrite L. reflexivity.
Qed.

(** ** The specification *)
Lemma valid_predicts pds k : predicts pds k (valid_prediction (lookup k pds)).
Proof.
  destruct (lookup k pds) as [f|] eqn:L; cbn [valid_prediction].
  - destruct (segmentation_labels f) as [|l [|l' ls]] eqn:E.
    + apply no_prediction. intros g l G El. apply last_lookup in G. rewrite L in G. injection G as <-. rewrite E in El. discriminate.
    + destruct (is_top (name l)) eqn:T.
      * apply (has_prediction pds k f l); [apply lookup_some; exact L|exact E|]. destruct (name l); try discriminate. reflexivity.
      * apply no_prediction. intros g l' G El. apply last_lookup in G. rewrite L in G. injection G as <-. rewrite E in El. injection El as <-.
        intros N. rewrite N in T. discriminate.
    + apply no_prediction. intros g l0 G El. apply last_lookup in G. rewrite L in G. injection G as <-. rewrite E in El. discriminate.
  - apply no_prediction. intros g l G _. apply last_lookup in G. rewrite L in G. discriminate.
Qed.
Definition as_verdict (r : result (option (list (Z * Z)))) : verdict :=
  match r with Ok (Some p) => Points p | Ok None => Unsupported | Err RuntimeError => Unreadable | Err _ => Mismatch end.
Lemma read_spec g pd r d1 : ri_return1 g = Some d1 ->
  match read_both g pd r (List.length d1) with
  | Ok q => comparable g pd r q
  | Err e => (e = CheckFailed /\ sizes_differ g pd r) \/ (e = RuntimeError /\ unreadable g pd r)
  end.
Proof.
  intros D1. unfold read_both, uncompress. destruct (r g) as [d|] eqn:D; cbn [bind]; [|right; split; [reflexivity|left; exact D]].
  destruct pd as [p|].
  - destruct (r p) as [dp|] eqn:P; cbn [bind]; [|right; split; [reflexivity|right; exists p; split; [reflexivity|exact P]]].
    destruct (Nat.eqb_spec (List.length dp) (List.length d)) as [L|L].
    + exists dp, d. split; [constructor; exact P|]. split; [exact D|]. split; [exact L|reflexivity].
    + left. split; [reflexivity|]. exists dp, d. split; [constructor; exact P|]. split; [exact D|exact L].
  - cbn [bind]. destruct (Nat.eqb_spec (List.length (create_empty_prediction (List.length d1))) (List.length d)) as [L|L].
    + exists (repeat 0 (List.length d1)), d. split; [constructor; exact D1|]. split; [exact D|]. split; [exact L|reflexivity].
    + left. split; [reflexivity|]. exists (repeat 0 (List.length d1)), d. split; [constructor; exact D1|]. split; [exact D|exact L].
Qed.
Lemma points_compared g pd : compared g pd (as_verdict (do q <- points_of g pd; Ok (Some q))).
Proof.
  unfold points_of. destruct (ri_return1 g) as [d1|] eqn:D1; cbn [uncompress bind as_verdict]; [|apply read1; left; exact D1].
  pose proof (read_spec g pd ri_return1 d1 D1) as R1. destruct (read_both g pd ri_return1 (List.length d1)) as [a|e]; cbn [bind].
  - pose proof (read_spec g pd ri_return2 d1 D1) as R2. destruct (read_both g pd ri_return2 (List.length d1)) as [b|e]; cbn [bind as_verdict].
    + apply both; assumption.
    + destruct R2 as [[-> S0]|[-> U]]; cbn [as_verdict]; [apply size2 with a; assumption|apply read2 with a; assumption].
  - destruct R1 as [[-> S0]|[-> U]]; cbn [as_verdict]; [apply size1; assumption|apply read1; assumption].
Qed.
Lemma judge_judged pds gts k : judged pds gts k (as_verdict (judge_key pds gts k)).
Proof.
  unfold judge_key. destruct (lookup k gts) as [f|] eqn:L; cbn [labelled judge].
  - pose proof (lookup_some _ _ _ L) as W. destruct (segmentation_labels f) as [|g [|g' ls]] eqn:E; cbn [judge].
    + cbn [as_verdict]. apply unlabelled. intros h H. apply last_lookup in H. rewrite L in H. injection H as <-. exact E.
    + destruct (is_top (name g)) eqn:T.
      * apply (top_laser pds gts k f g (valid_prediction (lookup k pds))); [exact W|exact E|destruct (name g); try discriminate; reflexivity|apply valid_predicts|apply points_compared].
      * cbn [as_verdict]. apply (other_laser pds gts k f); [exact W|rewrite E; discriminate|]. intros l El. rewrite E in El. injection El as <-. intros N. rewrite N in T. discriminate.
    + cbn [as_verdict]. apply (other_laser pds gts k f); [exact W|rewrite E; discriminate|]. intros l El. rewrite E in El. discriminate.
  - cbn [as_verdict]. apply unlabelled. intros h H. apply last_lookup in H. rewrite L in H. discriminate.
Qed.
Lemma labels_fun g r pd a b : labels g r pd a -> labels g r pd b -> a = b.
Proof. intros [p d H|d H] H'; inversion H'; subst; congruence. Qed.
Lemma predicts_fun pds k a b : predicts pds k a -> predicts pds k b -> a = b.
Proof.
  intros [f l F E T|N] [f' l' F' E' T'|N'].
  - apply last_lookup in F, F'. rewrite F in F'. injection F' as <-. rewrite E in E'. injection E' as <-. reflexivity.
  - destruct (N' _ _ F E T).
  - destruct (N _ _ F' E' T').
  - reflexivity.
Qed.
Lemma compared_fun g pd v w : compared g pd v -> compared g pd w -> v = w.
Proof.
  assert (CS : forall r q, comparable g pd r q -> sizes_differ g pd r -> False).
  { intros r q (p & d & L & D & N & _) (p' & d' & L' & D' & N'). rewrite (labels_fun _ _ _ _ _ L L') in N. rewrite D in D'. injection D' as <-. exact (N' N). }
  assert (CU : forall r q, comparable g pd r q -> unreadable g pd r -> False).
  { intros r q (p & d & L & D & N & _) [U|(x & -> & U)]; [congruence|]. inversion L; subst. congruence. }
  assert (SU : forall r, sizes_differ g pd r -> unreadable g pd r -> False).
  { intros r (p & d & L & D & N) [U|(x & -> & U)]; [congruence|]. inversion L; subst. congruence. }
  assert (CC : forall r q q', comparable g pd r q -> comparable g pd r q' -> q = q').
  { intros r q q' (p & d & L & D & N & ->) (p' & d' & L' & D' & N' & ->). rewrite (labels_fun _ _ _ _ _ L L'). rewrite D in D'. injection D' as <-. reflexivity. }
  intros [a b A B|A|a A B|A|a A B] [a' b' A' B'|A'|a' A' B'|A'|a' A' B']; try reflexivity; try (exfalso; eauto; fail).
  rewrite (CC _ _ _ A A'), (CC _ _ _ B B'). reflexivity.
Qed.
Lemma judged_fun pds gts k v w : judged pds gts k v -> judged pds gts k w -> v = w.
Proof.
  intros [U|f F N T|f g pd v0 F E T P C] [U'|f' F' N' T'|f' g' pd' v0' F' E' T' P' C']; try reflexivity.
  - destruct (N' (U f' F')).
  - rewrite (U f' F') in E'. discriminate.
  - destruct (N (U' f F)).
  - apply last_lookup in F, F'. rewrite F in F'. injection F' as <-. destruct (T g' E' T').
  - rewrite (U' f F) in E. discriminate.
  - apply last_lookup in F, F'. rewrite F in F'. injection F' as <-. destruct (T' g E T).
  - apply last_lookup in F, F'. rewrite F in F'. injection F' as <-. rewrite E in E'. injection E' as <-. rewrite (predicts_fun _ _ _ _ P P') in C. exact (compared_fun _ _ _ _ C C').
Qed.
Lemma judge_errors ls pd e : judge ls pd = Err e -> e = CheckFailed \/ e = RuntimeError.
Proof.
  destruct ls as [|g [|g' ls]]; cbn [judge]; try discriminate. destruct (is_top (name g)); [|discriminate]. unfold points_of.
  destruct (ri_return1 g) as [d1|] eqn:D1; cbn [uncompress bind]; [|intros [=]; auto].
  pose proof (read_spec g pd ri_return1 d1 D1) as R1. destruct (read_both g pd ri_return1 (List.length d1)) as [a|e1]; cbn [bind].
  - pose proof (read_spec g pd ri_return2 d1 D1) as R2. destruct (read_both g pd ri_return2 (List.length d1)) as [b|e2]; cbn [bind]; intros [=]; subst; tauto.
  - intros [=]; subst; tauto.
Qed.
Lemma total_outcome pds gts ks : outcome (judged pds gts) ks (total (judge_key pds gts) ks).
Proof.
  induction ks as [|k ks IH]; cbn [total]; [constructor|]. pose proof (judge_judged pds gts k) as J. destruct (judge_key pds gts k) as [[p|]|e] eqn:Ej; cbn [as_verdict bind] in *.
  - destruct (total (judge_key pds gts) ks) as [[q|]|e]; cbn [bind].
    + apply counted; assumption.
    + apply later with p; [exact J|exact IH|discriminate].
    + apply later with p; [exact J|exact IH|discriminate].
  - apply stopped. exact J.
  - destruct (judge_errors _ _ _ Ej) as [-> | ->]; [apply aborted; exact J|apply broken; exact J].
Qed.
Lemma outcome_total pds gts ks r : outcome (judged pds gts) ks r -> r = total (judge_key pds gts) ks.
Proof.
  assert (F : forall k v, judged pds gts k v -> v = as_verdict (judge_key pds gts k)) by (intros k v H; exact (judged_fun _ _ _ _ _ H (judge_judged pds gts k))).
  induction 1 as [|k ks p q A B IH|k ks p r A B IH N|k ks A|k ks A|k ks A]; cbn [total]; [reflexivity| | | | |]; apply F in A;
    pose proof (judge_errors (labelled (lookup k gts)) (valid_prediction (lookup k pds))) as Je; fold (judge_key pds gts k) in Je;
    destruct (judge_key pds gts k) as [[p'|]|e]; cbn [as_verdict bind] in *; try discriminate A;
    try (destruct (Je e eq_refl) as [-> | ->]; cbn [as_verdict] in A; try discriminate A; reflexivity).
  - injection A as <-. rewrite <- IH. reflexivity.
  - destruct (total (judge_key pds gts) ks) as [[q|]|e]; cbn [bind]; subst r; [destruct (N q); reflexivity|reflexivity|reflexivity].
  - reflexivity.
Qed.
(** The frames of both files in ascending order decide, each once, and only so. *)
Theorem tool_outcome pds gts : exists keys, StronglySorted (fun a b => pair_ltb a b = true) keys /\
  (forall k, In k keys <-> exists f, In f (pds ++ gts) /\ id_of f = k) /\
  forall r, outcome (judged pds gts) keys r -> compute pds gts = reported r.
Proof.
  exists (all_example_keys (pds ++ gts)). destruct (keys_spec (pds ++ gts)) as [A B]. split; [exact A|]. split; [exact B|]. intros r O. rewrite compute_total. f_equal.
  symmetry. apply outcome_total. exact O.
Qed.
Theorem outcome_exists pds gts keys : exists r, outcome (judged pds gts) keys r.
Proof. exists (total (judge_key pds gts) keys). apply total_outcome. Qed.
Lemma judged_absent pds gts k : (forall f, In f gts -> id_of f <> k) -> judged pds gts k (Points []).
Proof. intros N. apply unlabelled. intros f (a & b & -> & K & _). destruct (N f); [apply in_or_app; right; left; reflexivity|exact K]. Qed.
Lemma total_some J ks : (exists q, total J ks = Ok (Some q)) <-> forall k, In k ks -> exists p, J k = Ok (Some p).
Proof.
  induction ks as [|k ks IH]; cbn [total]; [split; [intros _ k []|intros _; exists []; reflexivity]|]. split.
  - intros (q & E) x [<- |I].
    + destruct (J k) as [[p|]|e]; cbn [bind] in E; try discriminate. exists p. reflexivity.
    + destruct (J k) as [[p|]|e]; cbn [bind] in E; try discriminate. destruct (total J ks) as [[q'|]|e]; cbn [bind] in E; try discriminate. apply IH; [exists q'; reflexivity|exact I].
  - intros H. destruct (H k (or_introl eq_refl)) as (p & ->). destruct (proj2 IH) as (q & ->); [intros x I; apply H; right; exact I|]. exists (p ++ q). reflexivity.
Qed.
(** Metrics are printed exactly when every labelled frame can be compared. *)
Definition frame_dec_pair (a b : frame_id) : {a = b} + {a <> b}.
Proof. decide equality; [apply Z.eq_dec|apply string_dec]. Defined.
Theorem tool_success pds gts : (exists m, compute pds gts = Ok (Some m)) <-> forall k, exists p, judged pds gts k (Points p).
Proof.
  rewrite compute_total. assert (E : (exists m, reported (total (judge_key pds gts) (all_example_keys (pds ++ gts))) = Ok (Some m)) <-> exists q, total (judge_key pds gts) (all_example_keys (pds ++ gts)) = Ok (Some q)).
  { destruct (total _ _) as [[q|]|e]; cbn [reported]; split; intros (m & M); try discriminate; eexists; reflexivity. }
  rewrite E, total_some. split.
  - intros H k. pose proof (judge_judged pds gts k) as J. destruct (in_dec (fun a b => frame_dec_pair a b) k (all_example_keys (pds ++ gts))) as [I|I].
    + destruct (H k I) as (p & P). rewrite P in J. exists p. exact J.
    + exists []. apply judged_absent. intros f F K. apply I, keys_spec. exists f. split; [apply in_or_app; right; exact F|exact K].
  - intros H k _. destruct (H k) as (p & P). pose proof (judged_fun _ _ _ _ _ P (judge_judged pds gts k)) as V.
    destruct (judge_key pds gts k) as [[q|]|e]; [exists q; reflexivity|discriminate|destruct e; discriminate].
Qed.

(** ** Only the last labelled frames and their predictions matter *)
Lemma sorted_unique {A} (lt : A -> A -> bool) (l : list A) : (forall a, lt a a = false) -> (forall a b c, lt a b = true -> lt b c = true -> lt a c = true) ->
  StronglySorted (fun a b => lt a b = true) l -> forall l', StronglySorted (fun a b => lt a b = true) l' -> (forall x, In x l <-> In x l') -> l = l'.
Proof.
  intros I T. induction 1 as [|a l S0 IH F]; intros l' S1 H.
  - destruct l' as [|b l']; [reflexivity|]. destruct (proj2 (H b) (or_introl eq_refl)).
  - destruct S1 as [|b l' S1 F1]; [destruct (proj1 (H a) (or_introl eq_refl))|]. rewrite Forall_forall in F, F1.
    assert (E : a = b).
    { destruct (proj1 (H a) (or_introl eq_refl)) as [E|Ia]; [symmetry; exact E|]. destruct (proj2 (H b) (or_introl eq_refl)) as [E|Ib]; [exact E|].
      pose proof (T _ _ _ (F b Ib) (F1 a Ia)) as X. rewrite I in X. discriminate. }
    subst b. f_equal. apply IH; [exact S1|]. intros x. split; intros X.
    + destruct (proj1 (H x) (or_intror X)) as [<- |Y]; [|exact Y]. pose proof (F _ X) as Z0. rewrite I in Z0. discriminate.
    + destruct (proj2 (H x) (or_intror X)) as [<- |Y]; [|exact Y]. pose proof (F1 _ X) as Z0. rewrite I in Z0. discriminate.
Qed.
Lemma sorted_filter {A} (R : A -> A -> Prop) (P : A -> bool) l : StronglySorted R l -> StronglySorted R (filter P l).
Proof.
  induction 1 as [|a l S0 IH F]; cbn [filter]; [constructor|]. destruct (P a); [|exact IH]. constructor; [exact IH|]. rewrite Forall_forall in *. intros x I. apply filter_In in I. apply F, I.
Qed.
Definition has_labels (gts : list seg_frame) (k : frame_id) : bool := match labelled (lookup k gts) with [] => false | _ => true end.
Lemma total_filter pds gts ks : total (judge_key pds gts) ks = total (judge_key pds gts) (filter (has_labels gts) ks).
Proof.
  induction ks as [|k ks IH]; cbn [total filter]; [reflexivity|]. unfold has_labels at 1. destruct (labelled (lookup k gts)) as [|g ls] eqn:E.
  - unfold judge_key at 1. rewrite E. cbn [judge bind]. rewrite <- IH. destruct (total (judge_key pds gts) ks) as [[q|]|e]; reflexivity.
  - cbn [total]. rewrite IH. reflexivity.
Qed.
Lemma total_ext J J' ks : (forall k, In k ks -> J k = J' k) -> total J ks = total J' ks.
Proof. induction ks as [|k ks IH]; intros H; cbn [total]; [reflexivity|]. rewrite (H k (or_introl eq_refl)), IH; [reflexivity|]. intros x I. apply H. right. exact I. Qed.
Definition labelled_keys (gts : list seg_frame) : list frame_id := filter (has_labels gts) (all_example_keys gts).
Lemma has_labels_in gts k : has_labels gts k = true -> exists f, In f gts /\ id_of f = k.
Proof.
  unfold has_labels. destruct (lookup k gts) as [f|] eqn:L; [|discriminate]. intros _. destruct (lookup_some _ _ _ L) as (a & b & -> & K & _). exists f.
  split; [apply in_or_app; right; left; reflexivity|exact K].
Qed.
Lemma labelled_keys_in gts k : In k (labelled_keys gts) <-> has_labels gts k = true.
Proof.
  unfold labelled_keys. rewrite filter_In. split; [intros [_ H]; exact H|]. intros H. split; [|exact H]. apply keys_spec, has_labels_in, H.
Qed.
Lemma keys_labelled pds gts : filter (has_labels gts) (all_example_keys (pds ++ gts)) = labelled_keys gts.
Proof.
  destruct (keys_spec (pds ++ gts)) as [A B]. apply (sorted_unique pair_ltb); [exact (proj1 strict_pair)|exact (proj1 (proj2 strict_pair))|apply sorted_filter; exact A|apply sorted_filter; apply keys_spec|].
  intros k. rewrite labelled_keys_in, filter_In. split; [intros [_ H]; exact H|]. intros H. split; [|exact H]. apply B. destruct (has_labels_in _ _ H) as (f & I & K).
  exists f. split; [apply in_or_app; right; exact I|exact K].
Qed.
Lemma compute_labelled pds gts : compute pds gts = reported (total (judge_key pds gts) (labelled_keys gts)).
Proof. rewrite compute_total, total_filter, keys_labelled. reflexivity. Qed.
Lemma compute_ext pds pds' gts gts' : (forall k, labelled (lookup k gts) = labelled (lookup k gts')) ->
  (forall k, has_labels gts k = true -> valid_prediction (lookup k pds) = valid_prediction (lookup k pds')) -> compute pds gts = compute pds' gts'.
Proof.
  intros G P. rewrite !compute_labelled. f_equal. assert (E : labelled_keys gts = labelled_keys gts').
  { apply (sorted_unique pair_ltb); [exact (proj1 strict_pair)|exact (proj1 (proj2 strict_pair))|apply sorted_filter; apply keys_spec|apply sorted_filter; apply keys_spec|].
    intros k. rewrite !labelled_keys_in. unfold has_labels. rewrite G. reflexivity. }
  rewrite <- E. apply total_ext. intros k I. unfold judge_key. rewrite G, P; [reflexivity|]. apply labelled_keys_in, I.
Qed.
Lemma perm_lookup l l' k : Permutation l l' -> NoDup (map id_of l) -> lookup k l = lookup k l'.
Proof.
  intros P N. assert (G : forall a b f, Permutation a b -> NoDup (map id_of a) -> lookup k a = Some f -> lookup k b = Some f).
  { intros a b f Pab Na L. destruct (lookup_some _ _ _ L) as (x & y & -> & K & _). assert (I : In f b) by (eapply Permutation_in; [exact Pab|apply in_or_app; right; left; reflexivity]).
    apply in_split in I. destruct I as (u & v & ->). apply last_lookup. exists u, v. split; [reflexivity|]. split; [exact K|]. intros g Ig Kg.
    assert (Nb : NoDup (map id_of (u ++ f :: v))) by (eapply Permutation_NoDup; [apply Permutation_map; exact Pab|exact Na]). rewrite map_app in Nb. cbn [map] in Nb.
    apply NoDup_remove_2 in Nb. apply Nb, in_or_app. right. apply in_map_iff. exists g. split; [rewrite Kg, K; reflexivity|exact Ig]. }
  destruct (lookup k l) as [f|] eqn:L; [symmetry; apply (G _ _ _ P N L)|]. destruct (lookup k l') as [f|] eqn:L'; [|reflexivity].
  rewrite (G l' l f) in L; [discriminate|apply Permutation_sym; exact P|eapply Permutation_NoDup; [apply Permutation_map; exact P|exact N]|exact L'].
Qed.
(** Distinct frames can come in any order. *)
Theorem tool_order pds pds' gts gts' : NoDup (map id_of pds) -> NoDup (map id_of gts) -> Permutation pds pds' -> Permutation gts gts' ->
  compute pds gts = compute pds' gts'.
Proof. intros Np Ng P G. apply compute_ext; intros k; [|intros _]; f_equal; apply perm_lookup; assumption. Qed.
Lemma lookup_drop k a f b : (exists g, In g b /\ id_of g = id_of f) -> lookup k (a ++ f :: b) = lookup k (a ++ b).
Proof.
  intros (g & I & K). rewrite !lookup_app. change (f :: b) with ([f] ++ b). rewrite lookup_app. destruct (lookup k b) as [h|] eqn:L; [reflexivity|].
  rewrite (lookup_absent k [f]); [reflexivity|]. intros x [<- |[]] E. apply (lookup_none _ _ L g I). congruence.
Qed.
(** A frame that is given again later is not used. *)
Theorem tool_last_wins pds a f b : (exists g, In g b /\ id_of g = id_of f) ->
  compute pds (a ++ f :: b) = compute pds (a ++ b) /\ compute (a ++ f :: b) pds = compute (a ++ b) pds.
Proof. intros H. split; apply compute_ext; intros k; try (intros _); rewrite ?lookup_drop by exact H; reflexivity. Qed.
(** Predictions of frames without labels are not used. *)
Theorem tool_unlabelled a f b gts : (forall g, last_with (id_of f) gts g -> segmentation_labels g = []) ->
  compute (a ++ f :: b) gts = compute (a ++ b) gts.
Proof.
  intros H. apply compute_ext; intros k; [reflexivity|]. intros L. f_equal. rewrite !lookup_app. change (f :: b) with ([f] ++ b). rewrite lookup_app.
  destruct (lookup k b) as [h|]; [reflexivity|]. rewrite (lookup_absent k [f]); [reflexivity|]. intros x [<- |[]] E. unfold has_labels in L.
  destruct (lookup k gts) as [g|] eqn:G; [|discriminate]. cbn [labelled] in L. rewrite (H g) in L; [discriminate|]. apply last_lookup. rewrite E. exact G.
Qed.
(** Where there is no prediction, no point counts as correct. *)
Theorem tool_missing_prediction g pts c : compared g None (Points pts) -> evaluated c -> count (in_both c) pts = 0.
Proof.
  intros H E. inversion H as [a b A B| | | |]; subst. rewrite count_app. assert (Z0 : forall r q, comparable g None r q -> count (in_both c) q = 0).
  { intros r q (p & d & L & _ & _ & ->). inversion L as [|d1 _]; subst. generalize (List.length d1). clear - E. intros n. revert d. induction n as [|n IH]; intros [|x d]; try reflexivity.
    cbn [repeat combine]. rewrite count_cons, IH. unfold in_both. cbn [fst snd]. destruct (Z.eqb_spec 0 c); [unfold evaluated in E; lia|reflexivity]. }
  rewrite (Z0 _ _ A), (Z0 _ _ B). reflexivity.
Qed.
(** A frame without a prediction is compared exactly if its returns have as many points as each other. *)
Theorem tool_missing_iff g : (exists pts, compared g None (Points pts)) <->
  exists d1 d2, ri_return1 g = Some d1 /\ ri_return2 g = Some d2 /\ List.length d1 = List.length d2.
Proof.
  split.
  - intros (pts & H). inversion H as [a b A B| | | |]; subst. destruct A as (p & d & L & D & N & _), B as (p' & d' & L' & D' & N' & _).
    inversion L as [|x X]; subst. inversion L' as [|y Y]; subst. rewrite X in Y. injection Y as <-. rewrite X in D. injection D as <-. exists x, d'. rewrite !repeat_length in *. auto.
  - intros (d1 & d2 & D1 & D2 & N). eexists. apply both; eexists; eexists; (split; [apply undefined; exact D1|]); (split; [eassumption|]); (split; [rewrite repeat_length; auto|reflexivity]).
Qed.

(** ** Labels with instance ids *)
Lemma interleaved_length l : List.length (interleaved l) = (2 * List.length l)%nat.
Proof. induction l as [|p l IH]; [reflexivity|]. cbn [interleaved flat_map app List.length] in *. fold (interleaved l). rewrite IH. lia. Qed.
Lemma classes_length l : List.length (classes l) = List.length l.
Proof. apply map_length. Qed.
Lemma interleaved_points p g : Permutation (combine (interleaved p) (interleaved g)) (combine (map instance_id p) (map instance_id g) ++ combine (classes p) (classes g)).
Proof.
  revert g. induction p as [|x p IH]; intros [|y g]; [apply perm_nil|apply perm_nil|apply perm_nil|].
  cbn [interleaved flat_map app map combine classes]. fold (interleaved p) (interleaved g) (classes p) (classes g).
  change ((instance_id x, instance_id y) :: (semantic_class x, semantic_class y) :: combine (interleaved p) (interleaved g)) with ([(instance_id x, instance_id y)] ++ (semantic_class x, semantic_class y) :: combine (interleaved p) (interleaved g)).
  cbn [app]. constructor. eapply perm_trans; [apply perm_skip; apply IH|]. apply Permutation_middle.
Qed.
Definition kept (pts : list (Z * Z)) : list (Z * Z) := filter (fun pt => valid segmentation_types (snd pt)) pts.
Lemma kept_app a b : kept (a ++ b) = kept a ++ kept b.
Proof. apply filter_app. Qed.
Lemma count_kept P pts : (forall pt, P pt = true -> valid segmentation_types (snd pt) = true) -> count P (kept pts) = count P pts.
Proof.
  intros H. unfold kept. induction pts as [|pt pts IH]; [reflexivity|]. cbn [filter]. destruct (valid segmentation_types (snd pt)) eqn:V; rewrite !count_cons, IH || rewrite count_cons, IH; [reflexivity|].
  destruct (P pt) eqn:E; [rewrite (H pt E) in V; discriminate|reflexivity].
Qed.
Lemma metrics_kept pts pts' : kept pts = kept pts' -> metrics_of segmentation_types pts = metrics_of segmentation_types pts'.
Proof.
  intros E. assert (B : forall c, In c segmentation_types -> count (in_both c) pts = count (in_both c) pts' /\ count (in_either segmentation_types c) pts = count (in_either segmentation_types c) pts').
  { intros c I. apply valid_iff in I. split.
    - rewrite <- (count_kept _ pts), <- (count_kept _ pts'), E; [reflexivity| |]; intros pt; unfold in_both; rewrite andb_true_iff, !Z.eqb_eq; intros [_ ->]; exact I.
    - rewrite <- (count_kept _ pts), <- (count_kept _ pts'), E; [reflexivity| |]; intros pt; unfold in_either; rewrite orb_true_iff, andb_true_iff, !Z.eqb_eq; intros [-> |[_ V]]; assumption. }
  assert (Rr : forall c, In c segmentation_types -> ratio c segmentation_types pts = ratio c segmentation_types pts').
  { intros c I. unfold ratio. destruct (B c I) as [-> ->]. reflexivity. }
  unfold metrics_of. f_equal; [|f_equal| |]; apply map_ext_in; intros c I; try (rewrite (Rr c I); reflexivity); apply B; exact I.
Qed.
Definition no_evaluated (l : list point_label) : Prop := forall p, In p l -> ~ evaluated (instance_id p).
Lemma kept_interleaved p : forall g, no_evaluated g -> kept (combine (interleaved p) (interleaved g)) = kept (combine (classes p) (classes g)).
Proof.
  induction p as [|x p IH]; intros [|y g] N; try reflexivity. cbn [interleaved flat_map app classes map combine]. fold (interleaved p) (interleaved g) (classes p) (classes g).
  unfold kept. cbn [filter snd]. assert (V : valid segmentation_types (instance_id y) = false) by (apply not_true_is_false; rewrite types_iff; apply N; left; reflexivity).
  rewrite V. fold (kept (combine (interleaved p) (interleaved g))) (kept (combine (classes p) (classes g))). rewrite IH; [reflexivity|]. intros q I. apply N. right. exact I.
Qed.
Lemma kept_undefined n : forall g, no_evaluated g -> kept (combine (repeat 0 (2 * n)) (interleaved g)) = kept (combine (repeat 0 n) (classes g)).
Proof.
  induction n as [|n IH]; intros [|y g] N; try reflexivity. replace (2 * S n)%nat with (S (S (2 * n))) by lia. cbn [interleaved flat_map app classes map combine repeat]. fold (interleaved g) (classes g).
  unfold kept. cbn [filter snd]. assert (V : valid segmentation_types (instance_id y) = false) by (apply not_true_is_false; rewrite types_iff; apply N; left; reflexivity).
  rewrite V. fold (kept (combine (repeat 0 (2 * n)) (interleaved g))) (kept (combine (repeat 0 n) (classes g))). rewrite IH; [reflexivity|]. intros q I. apply N. right. exact I.
Qed.
Definition triple : Type := laser_name * option (list point_label) * option (list point_label).
Definition as_laser (write : list point_label -> list Z) (t : triple) : laser :=
  let '(n, r1, r2) := t in {| name := n; ri_return1 := option_map write r1; ri_return2 := option_map write r2 |}.
Definition clean (t : triple) : Prop := forall l, snd (fst t) = Some l \/ snd t = Some l -> no_evaluated l.
Definition same (a b : result (list (Z * Z))) : Prop :=
  match a, b with Ok p, Ok q => kept p = kept q | Err e, Err e' => e = e' | _, _ => False end.
Lemma same_points (g : triple) (pd : option triple) : clean g ->
  same (points_of (as_laser interleaved g) (option_map (as_laser interleaved) pd)) (points_of (as_laser classes g) (option_map (as_laser classes) pd)).
Proof.
  destruct g as [[n r1] r2]. unfold clean. cbn [fst snd]. intros C. unfold points_of, read_both. cbn [as_laser ri_return1 ri_return2].
  destruct r1 as [l1|]; cbn [option_map uncompress bind same]; [|reflexivity]. specialize (C l1) as C1. specialize (C1 (or_introl eq_refl)).
  destruct pd as [[[pn p1] p2]|]; cbn [option_map as_laser ri_return1 ri_return2].
  - destruct p1 as [p1|]; cbn [option_map uncompress bind same]; [|reflexivity]. rewrite !interleaved_length, !classes_length.
    destruct (Nat.eqb_spec (List.length p1) (List.length l1)) as [L|L].
    + rewrite L, Nat.eqb_refl. cbn [bind]. destruct r2 as [l2|]; cbn [option_map uncompress bind same]; [|reflexivity]. specialize (C l2) as C2. specialize (C2 (or_intror eq_refl)).
      destruct p2 as [p2|]; cbn [option_map uncompress bind same]; [|reflexivity]. rewrite !interleaved_length, !classes_length.
      destruct (Nat.eqb_spec (List.length p2) (List.length l2)) as [L2|L2].
      * rewrite L2, Nat.eqb_refl. cbn [bind same]. rewrite !kept_app, kept_interleaved, kept_interleaved by assumption. reflexivity.
      * replace (Nat.eqb (2 * List.length p2) (2 * List.length l2)) with false by (symmetry; apply Nat.eqb_neq; lia). reflexivity.
    + replace (Nat.eqb (2 * List.length p1) (2 * List.length l1)) with false by (symmetry; apply Nat.eqb_neq; lia). reflexivity.
  - cbn [bind]. unfold create_empty_prediction, TYPE_UNDEFINED. rewrite !repeat_length, !Nat.eqb_refl. cbn [bind]. rewrite !interleaved_length, !classes_length.
    destruct r2 as [l2|]; cbn [option_map uncompress bind same]; [|reflexivity]. specialize (C l2) as C2. specialize (C2 (or_intror eq_refl)).
    rewrite !interleaved_length, !classes_length. destruct (Nat.eqb_spec (List.length l1) (List.length l2)) as [L2|L2].
    + rewrite L2, Nat.eqb_refl. cbn [bind same]. rewrite !kept_app, kept_undefined, kept_undefined by assumption. reflexivity.
    + replace (Nat.eqb (2 * List.length l1) (2 * List.length l2)) with false by (symmetry; apply Nat.eqb_neq; lia). reflexivity.
Qed.
Fixpoint look (k : frame_id) (l : list label_frame) : option label_frame :=
  match l with
  | [] => None
  | f :: l' => match look k l' with Some g => Some g | None => if string_dec (frame_context f) (fst k) then if Z.eq_dec (frame_stamp f) (snd k) then Some f else None else None end
  end.
Lemma look_lookup w k l : lookup k (map (as_frame w) l) = option_map (as_frame w) (look k l).
Proof.
  induction l as [|f l IH]; [reflexivity|]. cbn [map lookup look]. rewrite IH. destruct (look k l); [reflexivity|]. cbn [option_map as_frame context_name frame_timestamp].
  destruct (string_dec _ _); [destruct (Z.eq_dec _ _)|]; reflexivity.
Qed.
Lemma look_in k l : forall f, look k l = Some f -> In f l.
Proof.
  induction l as [|g l IH]; intros f E; [discriminate|]. cbn [look] in E. destruct (look k l) as [h|]; [injection E as <-; right; apply IH; reflexivity|].
  destruct (string_dec _ _); [destruct (Z.eq_dec _ _)|]; try discriminate. injection E as <-. left. reflexivity.
Qed.
Lemma as_frame_lasers w f : segmentation_labels (as_frame w f) = map (as_laser w) (lasers f).
Proof. unfold as_frame. cbn [segmentation_labels]. apply map_ext. intros [[n r1] r2]. reflexivity. Qed.
Definition top_one (f : option label_frame) : option triple :=
  match f with Some f => match lasers f with [t] => if is_top (fst (fst t)) then Some t else None | _ => None end | None => None end.
Lemma top_valid w f : valid_prediction (option_map (as_frame w) f) = option_map (as_laser w) (top_one f).
Proof.
  destruct f as [f|]; [|reflexivity]. cbn [option_map valid_prediction top_one]. rewrite as_frame_lasers. destruct (lasers f) as [|[[n r1] r2] [|t' ts]]; try reflexivity.
  cbn [map as_laser name fst]. destruct (is_top n); reflexivity.
Qed.
Definition same_opt (a b : result (option (list (Z * Z)))) : Prop :=
  match a, b with Ok (Some p), Ok (Some q) => kept p = kept q | Ok None, Ok None => True | Err e, Err e' => e = e' | _, _ => False end.
Lemma same_total J J' ks : (forall k, same_opt (J k) (J' k)) -> same_opt (total J ks) (total J' ks).
Proof.
  intros H. induction ks as [|k ks IH]; cbn [total]; [reflexivity|]. specialize (H k). destruct (J k) as [[p|]|e], (J' k) as [[p'|]|e']; cbn [same_opt bind] in *; try contradiction; [|exact I|exact H].
  destruct (total J ks) as [[q|]|e], (total J' ks) as [[q'|]|e']; cbn [same_opt bind] in *; try contradiction; [|exact I|exact IH]. rewrite !kept_app, H, IH. reflexivity.
Qed.
(** Written with their instance ids, labels give the metrics of their classes if no instance id of the
    ground truth is the number of a class. *)
Theorem tool_instances pds gts : (forall f p, In f gts -> labels_in f p -> ~ evaluated (instance_id p)) ->
  compute (map (as_frame interleaved) pds) (map (as_frame interleaved) gts) = compute (map (as_frame classes) pds) (map (as_frame classes) gts).
Proof.
  intros H. rewrite !compute_labelled. assert (K : labelled_keys (map (as_frame interleaved) gts) = labelled_keys (map (as_frame classes) gts)).
  { apply (sorted_unique pair_ltb); [exact (proj1 strict_pair)|exact (proj1 (proj2 strict_pair))|apply sorted_filter; apply keys_spec|apply sorted_filter; apply keys_spec|].
    intros k. rewrite !labelled_keys_in. unfold has_labels. rewrite !look_lookup. destruct (look k gts) as [f|]; [|reflexivity]. cbn [option_map labelled]. rewrite !as_frame_lasers.
    destruct (lasers f); reflexivity. }
  rewrite K. assert (T : same_opt (total (judge_key (map (as_frame interleaved) pds) (map (as_frame interleaved) gts)) (labelled_keys (map (as_frame classes) gts)))
    (total (judge_key (map (as_frame classes) pds) (map (as_frame classes) gts)) (labelled_keys (map (as_frame classes) gts)))).
  { apply same_total. intros k. unfold judge_key. rewrite !look_lookup, !top_valid. destruct (look k gts) as [f|] eqn:L; [|reflexivity]. cbn [option_map labelled]. rewrite !as_frame_lasers.
    destruct (lasers f) as [|t [|t' ts]] eqn:E; cbn [map judge same_opt]; [reflexivity| |exact I].
    assert (N : forall w, name (as_laser w t) = fst (fst t)) by (intros w; destruct t as [[n r1] r2]; reflexivity). rewrite !N. destruct (is_top (fst (fst t))); [|exact I].
    assert (C : clean t).
    { intros l Hl p Ip. apply (H f p); [exact (look_in _ _ _ L)|]. destruct t as [[n r1] r2]. exists n, r1, r2, l. split; [rewrite E; left; reflexivity|]. split; [exact Hl|exact Ip]. }
    pose proof (same_points t (top_one (look k pds)) C) as S0. destruct (points_of (as_laser interleaved t) _), (points_of (as_laser classes t) _); cbn [same bind same_opt] in *; try contradiction; exact S0. }
  destruct (total _ _) as [[q|]|e], (total _ _) as [[q'|]|e']; cbn [same_opt reported] in *; try contradiction; [rewrite (metrics_kept _ _ T)|..]; congruence.
Qed.
