(** Proofs about reading converted examples. *)
From Coq Require Import String Lia Permutation Sorted.
From Verif Require Import Base ResultLib ListLib ScenarioModel ScenarioSpec ScenarioAgentProofs ScenarioProofs ScenarioOutcomeProofs
  ScenarioExamples TfReadModel TfReadSpec.
Open Scope list_scope.
Open Scope Z_scope.

Section One.
Context (pf : platform) (cfg : config) (sc : scenario) (l : log).
Hypothesis CV : converted pf cfg sc l.

Lemma cv_shapes k n : In (k, n) (shapes cfg) -> count (tensor k l) = n.
Proof. destruct CV as (A & B & C & D & E & F). apply (whole_shapes pf sc cfg l); assumption. Qed.

Lemma float_state f name : In name ["x"; "y"; "z"; "width"; "length"; "height"; "velocity_x"; "velocity_y"; "bbox_yaw"; "vel_yaw"]%string ->
  forallb (has_dtype TFloat) (tensor (state_key f name) l) = true.
Proof.
  intros I. destruct CV as (A & B & C & D & E & F).
  destruct (whole_agents pf sc cfg l A B C D E F) as (m & c & rows & _ & ST & _).
  assert (IN : In name state_names) by (unfold state_names; cbn [In] in I |- *; tauto).
  specialize (ST f name IN). apply forallb_forall. intros v IV.
  assert (X : In (Some v) (state_tensor pf sc cfg rows f name)) by (rewrite <- ST; apply in_map; exact IV).
  unfold state_tensor in X. apply in_flat_map in X. destruct X as (r & _ & X). apply in_map_iff in X. destruct X as (t & X & _).
  cbn [In] in I. clear - X I. remember (shown sc r t) as s. clear Heqs.
  repeat (destruct I as [<-|I]; [cbn in X; injection X as <-; destruct s as [s|]; [|reflexivity]; try reflexivity;
    unfold num_or_nan; first [destruct (center_x s); reflexivity | destruct (center_y s); reflexivity]|]). destruct I.
Qed.

Lemma int_state f name : In name ["valid"; "timestamp_micros"]%string -> forallb (has_dtype TInt) (tensor (state_key f name) l) = true.
Proof.
  intros I. destruct CV as (A & B & C & D & E & F).
  destruct (whole_agents pf sc cfg l A B C D E F) as (m & c & rows & _ & ST & _).
  assert (IN : In name state_names) by (unfold state_names; cbn [In] in I |- *; tauto).
  specialize (ST f name IN). apply forallb_forall. intros v IV.
  assert (X : In (Some v) (state_tensor pf sc cfg rows f name)) by (rewrite <- ST; apply in_map; exact IV).
  unfold state_tensor in X. apply in_flat_map in X. destruct X as (r & _ & X). apply in_map_iff in X. destruct X as (t & X & _).
  cbn [In] in I. clear - X I. remember (shown sc r t) as s. clear Heqs.
  repeat (destruct I as [<-|I]; [cbn in X; injection X as <-; reflexivity|]). destruct I.
Qed.

Lemma agent_kinds name d : In (name, d) [("id", TFloat); ("type", TFloat); ("is_sdc", TInt); ("tracks_to_predict", TInt)]%string ->
  forallb (has_dtype d) (tensor ("state/" ++ name)%string l) = true.
Proof.
  intros I. destruct CV as (A & B & C & D & E & F).
  destruct (whole_agents pf sc cfg l A B C D E F) as (m & c & rows & _ & _ & AT).
  assert (IN : In name agent_names).
  { cbn [In] in I. repeat (destruct I as [I|I]; [injection I as <- <-; unfold agent_names; cbn [In]; tauto|]). destruct I. }
  specialize (AT name IN). apply forallb_forall. intros v IV.
  assert (X : In (Some v) (map (agent_field sc m name) rows)) by (rewrite <- AT; apply in_map; exact IV).
  apply in_map_iff in X. destruct X as (r & X & _).
  cbn [In] in I. clear - X I.
  repeat (destruct I as [I|I]; [injection I as <- <-; cbn in X; injection X as <-; destruct r; reflexivity|]). destruct I.
Qed.

Lemma light_kinds f name d : In (name, d) [("x", TFloat); ("y", TFloat); ("z", TFloat); ("state", TInt); ("valid", TInt)]%string ->
  forallb (has_dtype d) (tensor (light_key f name) l) = true.
Proof.
  intros I. destruct CV as (A & B & C & D & E & F).
  assert (IN : In name light_names).
  { cbn [In] in I. repeat (destruct I as [I|I]; [injection I as <- <-; unfold light_names; cbn [In]; tauto|]). destruct I. }
  pose proof (whole_lights pf sc cfg l A B C D E F f name IN) as LT. apply forallb_forall. intros v IV.
  assert (X : In (Some v) (light_tensor sc cfg f name)) by (rewrite <- LT; apply in_map; exact IV).
  unfold light_tensor in X. apply in_flat_map in X. destruct X as (t & _ & X). apply in_map_iff in X. destruct X as (i & X & _).
  cbn [In] in I. clear - X I. remember (light sc t i) as s. clear Heqs.
  repeat (destruct I as [I|I]; [injection I as <- <-; cbn in X; injection X as <-; destruct s; reflexivity|]). destruct I.
Qed.

Lemma forallb_repeat {A} (p : A -> bool) x n : p x = true -> forallb p (repeat x n) = true.
Proof. intros H. induction n as [|n IH]; [reflexivity|]. cbn [repeat forallb]. rewrite H. exact IH. Qed.
Lemma forallb_const {A B} (p : B -> bool) (f : A -> B) xs : (forall x, p (f x) = true) -> forallb p (map f xs) = true.
Proof. intros H. induction xs as [|x xs IH]; [reflexivity|]. cbn [map forallb]. rewrite H. exact IH. Qed.
Lemma forallb_coords vs : forallb (has_dtype TFloat) (flat_map coords vs) = true.
Proof. induction vs as [|v vs IH]; [reflexivity|]. cbn [flat_map]. rewrite forallb_app, IH. reflexivity. Qed.

Lemma road_kinds name d : In (name, d) [("id", TInt); ("type", TInt); ("valid", TInt); ("xyz", TFloat); ("dir", TFloat)]%string ->
  forallb (has_dtype d) (tensor ("roadgraph_samples/" ++ name)%string l) = true.
Proof.
  intros I. destruct CV as (A & B & C & D & E & F).
  assert (IN : In name ["id"; "type"; "valid"; "xyz"; "dir"]%string).
  { cbn [In] in I. repeat (destruct I as [I|I]; [injection I as <- <-; cbn [In]; tauto|]). destruct I. }
  rewrite (whole_road pf sc cfg l A B C E F name IN). clear IN. cbn [In] in I.
  unfold road_tensor. cbv zeta.
  destruct I as [I|[I|[I|[I|[I|[]]]]]]; injection I as <- <-; cbn match; rewrite forallb_app; apply andb_true_intro; split;
    try (apply forallb_repeat; reflexivity); try (apply forallb_const; reflexivity); try apply forallb_coords.
  clear. induction (kept_samples pf cfg (map_features sc)) as [|v vs IH]; [reflexivity|]. cbn [flat_map]. rewrite forallb_app, IH. reflexivity.
Qed.

Lemma id_kind : forallb (has_dtype TBytes) (tensor "scenario/id" l) = true.
Proof. destruct CV as (A & B & C & D & E & F). rewrite (whole_id pf sc cfg l A B C E F). reflexivity. Qed.

Lemma kinds_all : Forall (fun d => forallb (has_dtype (snd d)) (tensor (fst (fst d)) l) = true) features_description.
Proof.
  unfold features_description.
  repeat (constructor; [cbn [fst snd];
    first [ exact id_kind
          | match goal with |- forallb (has_dtype ?d) (tensor ?k l) = true =>
              match eval vm_compute in (substring 0 18 k) with
              | "roadgraph_samples/"%string =>
                  let n := eval vm_compute in (substring 18 100 k) in apply (road_kinds n d); cbn [In]; tauto
              end end
          | match goal with |- forallb (has_dtype ?d) (tensor ?k l) = true =>
              match eval vm_compute in (substring 0 20 k) with
              | "traffic_light_state/"%string =>
                  match eval vm_compute in (substring 20 4 k) with
                  | "past"%string => let n := eval vm_compute in (substring 25 100 k) in apply (light_kinds Past n d); cbn [In]; tauto
                  | _ => let n := eval vm_compute in (substring 28 100 k) in apply (light_kinds Current n d); cbn [In]; tauto
                  end
              end end
          | match goal with |- forallb (has_dtype ?d) (tensor ?k l) = true =>
              let r := eval vm_compute in (substring 6 100 k) in
              match eval vm_compute in (substring 0 4 r) with
              | "past"%string => let n := eval vm_compute in (substring 5 100 r) in
                  first [apply (float_state Past n); cbn [In]; tauto | apply (int_state Past n); cbn [In]; tauto]
              | "curr"%string => let n := eval vm_compute in (substring 8 100 r) in
                  first [apply (float_state Current n); cbn [In]; tauto | apply (int_state Current n); cbn [In]; tauto]
              | "futu"%string => let n := eval vm_compute in (substring 7 100 r) in
                  first [apply (float_state Future n); cbn [In]; tauto | apply (int_state Future n); cbn [In]; tauto]
              | _ => apply (agent_kinds r d); cbn [In]; tauto
              end end ]|]).
  constructor.
Qed.
End One.

Lemma size_count {A} (l : list A) : ScenarioModel.size l = count l.
Proof. reflexivity. Qed.

Lemma feature_ok ex k sh d r : fixed_len_feature ex (k, sh, d) = Ok r ->
  r = (k, tensor k ex) /\ forallb (has_dtype d) (tensor k ex) = true /\ count (tensor k ex) = elements sh.
Proof.
  unfold fixed_len_feature. destruct (tensor k ex) as [|v vs] eqn:E; [discriminate|].
  destruct (forallb (has_dtype d) (v :: vs)) eqn:K; cbn [andb]; [|discriminate].
  destruct (ScenarioModel.size (v :: vs) =? elements sh) eqn:Z; [|discriminate]. intros H. injection H as <-.
  split; [reflexivity|]. split; [reflexivity|]. apply Z.eqb_eq in Z. exact Z.
Qed.
Lemma feature_make ex k sh d : 0 < elements sh -> forallb (has_dtype d) (tensor k ex) = true -> count (tensor k ex) = elements sh ->
  fixed_len_feature ex (k, sh, d) = Ok (k, tensor k ex).
Proof.
  intros P K C. unfold fixed_len_feature. destruct (tensor k ex) as [|v vs] eqn:E; [cbn in C; lia|].
  rewrite K. rewrite size_count, C, Z.eqb_refl. reflexivity.
Qed.
Lemma feature_err ex d e : fixed_len_feature ex d = Err e -> e = ValueError.
Proof.
  destruct d as [[k sh] d]. unfold fixed_len_feature. destruct (tensor k ex); [congruence|]. destruct (_ && _); congruence.
Qed.
Lemma mapM_err_all {A B} (f : A -> result B) xs e : (forall x e', f x = Err e' -> e' = e) -> forall e', mapM f xs = Err e' -> e' = e.
Proof.
  intros H. induction xs as [|x xs IH]; intros e'; cbn [mapM]; [discriminate|].
  destruct (f x) eqn:E; cbn [bind]; [|intros X; injection X as <-; apply (H x); exact E].
  destruct (mapM f xs); cbn [bind]; [discriminate|]. intros X. injection X as <-. apply IH. reflexivity.
Qed.

Definition entry (l : log) (d : string * list Z * dtype) : string * list value := (fst (fst d), tensor (fst (fst d)) l).

Lemma mapM_entries {A B} (f : A -> result B) g xs r : (forall x y, In x xs -> f x = Ok y -> y = g x) -> mapM f xs = Ok r -> r = map g xs.
Proof.
  revert r. induction xs as [|x xs IH]; intros r H; cbn [mapM map]; [congruence|].
  destruct (f x) eqn:E; cbn [bind]; [|discriminate]. destruct (mapM f xs) eqn:M; cbn [bind]; [|discriminate]. intros X. injection X as <-.
  rewrite (H x a); [|left; reflexivity|exact E]. f_equal. apply IH; [|reflexivity]. intros; apply H; [right|]; assumption.
Qed.

Theorem parse_entries l p : parse_tf_example l = Ok p -> p = map (entry l) features_description.
Proof.
  apply mapM_entries. intros [[k sh] d] y _ H. apply feature_ok in H. destruct H as [-> _]. reflexivity.
Qed.

Lemma sizes_all cfg : task_sizes cfg -> Forall (fun d =>
  match find (fun e => String.eqb (fst e) (fst (fst d))) (shapes cfg) with
  | Some e => snd e = elements (snd (fst d)) /\ 0 < elements (snd (fst d)) | None => False end) features_description.
Proof.
  destruct cfg as [a m p f r s1 s2 s3 t]. unfold task_sizes. cbn [max_num_agents num_past_steps num_future_steps max_roadgraph_samples max_traffic_light_control_points_per_step].
  intros (-> & -> & -> & -> & ->).
  repeat (constructor; [vm_compute; split; reflexivity|]). constructor.
Qed.

Lemma shape_in {A} k (xs : list (string * A)) e : find (fun e => String.eqb (fst e) k) xs = Some e -> In (k, snd e) xs.
Proof.
  intros H. apply find_some in H. destruct H as [I E]. apply String.eqb_eq in E. destruct e as [k' x]. cbn in *. subst. exact I.
Qed.

Lemma size_of pf cfg sc l k sh d p : converted pf cfg sc l -> parse_tf_example l = Ok p -> In (k, sh, d) features_description ->
  count (tensor k l) = elements sh.
Proof.
  intros _ H I. unfold parse_tf_example in H. revert p H I. generalize features_description. intros xs.
  induction xs as [|x xs IH]; intros p H I; [destruct I|]. cbn [mapM] in H.
  destruct (fixed_len_feature l x) eqn:E; cbn [bind] in H; [|discriminate].
  destruct (mapM (fixed_len_feature l) xs) as [ys|] eqn:M; cbn [bind] in H; [|discriminate].
  destruct I as [->|I]; [|apply (IH ys); [reflexivity|exact I]]. apply feature_ok in E. apply E.
Qed.

Ltac find_in := repeat (first [left; reflexivity | right]).

Theorem readable pf cfg sc l : converted pf cfg sc l -> ((exists p, parse_tf_example l = Ok p) <-> task_sizes cfg).
Proof.
  intros CV. split.
  - intros [p H].
    assert (S : forall k sh d n, In (k, sh, d) features_description -> In (k, n) (shapes cfg) -> n = elements sh).
    { intros k sh d n I J. rewrite <- (cv_shapes pf cfg sc l CV k n J). apply (size_of pf cfg sc l k sh d p CV H I). }
    assert (A : max_num_agents cfg = 128) by (apply (S "state/id"%string [128] TFloat); unfold features_description, shapes; cbn [map app flat_map frames agent_names]; find_in).
    assert (P : max_num_agents cfg * (num_past_steps cfg - 1) = 1280)
      by (apply (S "state/past/x"%string [128; 10] TFloat); unfold features_description, shapes; cbn [map app flat_map frames agent_names state_names]; find_in).
    assert (F : max_num_agents cfg * num_future_steps cfg = 10240)
      by (apply (S "state/future/x"%string [128; 80] TFloat); unfold features_description, shapes; cbn [map app flat_map frames agent_names state_names]; find_in).
    assert (R : Z.max 0 (max_roadgraph_samples cfg) = 20000)
      by (apply (S "roadgraph_samples/id"%string [20000; 1] TInt); unfold features_description, shapes; cbn [map app flat_map]; find_in).
    assert (T : 1 * Z.max 0 (max_traffic_light_control_points_per_step cfg) = 16)
      by (apply (S "traffic_light_state/current/x"%string [1; 16] TFloat); unfold features_description, shapes; cbn [map app flat_map frames light_names]; find_in).
    rewrite A in P, F. unfold task_sizes. lia.
  - intros TS. exists (map (entry l) features_description). apply mapM_in. intros [[k sh] d] I.
    pose proof (sizes_all cfg TS) as SA. rewrite Forall_forall in SA. specialize (SA _ I). cbn [fst snd] in SA.
    destruct (find _ (shapes cfg)) as [e|] eqn:E; [|destruct SA]. destruct SA as [SE SP].
    pose proof (kinds_all pf cfg sc l CV) as KA. rewrite Forall_forall in KA. specialize (KA _ I). cbn [fst snd] in KA.
    apply feature_make; [exact SP|exact KA|]. rewrite <- SE. apply (cv_shapes pf cfg sc l CV). apply shape_in. exact E.
Qed.

Theorem unreadable pf cfg sc l : converted pf cfg sc l -> ~ task_sizes cfg -> parse_tf_example l = Err ValueError.
Proof.
  intros CV N. destruct (parse_tf_example l) as [p|e] eqn:E.
  - exfalso. apply N. apply (readable pf cfg sc l CV). exists p. exact E.
  - f_equal. apply (mapM_err_all (fixed_len_feature l) features_description); [|exact E]. intros x e'. apply feature_err.
Qed.

(** The rows of a batch. *)
Lemma ones_row (f : option nat -> value) rows s : (forall r, is_one (f r) = match r with Some i => Nat.eqb i s | None => false end) ->
  NoDup (flat_map (fun r => match r with Some i => [i] | None => [] end) rows) ->
  forall {B} (g : option nat -> B),
  map (fun i => nth_error (map g rows) i) (ones (map f rows))
  = if existsb (fun r => match r with Some i => Nat.eqb i s | None => false end) rows then [Some (g (Some s))] else [].
Proof.
  intros HF ND B g. unfold ones. rewrite map_length.
  assert (G : forall rs pre, rows = pre ++ rs -> NoDup (flat_map (fun r => match r with Some i => [i] | None => [] end) rs) ->
    map (fun i => nth_error (map g rows) i) (map fst (filter (fun iv => is_one (snd iv)) (combine (seq (List.length pre) (List.length rs)) (map f rs))))
    = if existsb (fun r => match r with Some i => Nat.eqb i s | None => false end) rs then [Some (g (Some s))] else []).
  { induction rs as [|r rs IH]; intros pre E N; [reflexivity|].
    cbn [List.length seq map combine filter snd existsb]. rewrite HF.
    assert (E' : rows = (pre ++ [r]) ++ rs) by (rewrite <- app_assoc; exact E).
    assert (L : S (List.length pre) = List.length (pre ++ [r])) by (rewrite app_length; cbn [List.length]; lia).
    destruct r as [i|]; cbn [flat_map app] in N.
    - inversion N as [|? ? NI N']; subst. specialize (IH _ E' N'). rewrite L. destruct (Nat.eqb_spec i s) as [->|NE]; cbn [orb].
      + cbn [map fst]. rewrite IH. f_equal.
        * rewrite map_app, nth_error_app2 by (rewrite map_length; lia). rewrite map_length, Nat.sub_diag. reflexivity.
        * destruct (existsb _ rs) eqn:X; [|reflexivity]. exfalso. apply existsb_exists in X. destruct X as ([j|] & IJ & X); [|discriminate].
          apply Nat.eqb_eq in X. subst j. apply NI. apply in_flat_map. exists (Some s). split; [exact IJ|left; reflexivity].
      + exact IH.
    - rewrite L. cbn [orb]. apply IH; assumption. }
  apply (G rows []); [reflexivity|exact ND].
Qed.

Lemma map_Some_inj {A} (a b : list A) : map Some a = map Some b -> a = b.
Proof. revert b. induction a as [|x a IH]; intros [|y b]; cbn [map]; try discriminate; [reflexivity|]. intros H. injection H as -> H. f_equal. apply IH. exact H. Qed.

Lemma rows_indices pf sc cfg m c rows : rows_ok pf sc cfg m c rows ->
  NoDup (flat_map (fun r : option nat => match r with Some i => [i] | None => [] end) rows).
Proof.
  intros RO. destruct (rows_cover pf sc cfg m c rows RO) as [ND _]. rewrite (ro_rows _ _ _ _ _ _ RO).
  rewrite !flat_map_app.
  assert (X : forall ms : list nat, flat_map (fun r : option nat => match r with Some i => [i] | None => [] end) (map Some ms) = ms).
  { induction ms as [|x ms IH]; [reflexivity|]. cbn [map flat_map app]. f_equal. exact IH. }
  rewrite !X. assert (Y : forall n, flat_map (fun r : option nat => match r with Some i => [i] | None => [] end) (repeat None n) = []).
  { induction n as [|n IH]; [reflexivity|]. cbn [repeat flat_map app]. exact IH. }
  rewrite Y, app_nil_r. exact ND.
Qed.

Definition sdc_names : list string := ["x"; "y"; "z"; "bbox_yaw"]%string.

Lemma example_sdc pf cfg sc l : converted pf cfg sc l -> exists m c rows, rows_ok pf sc cfg m c rows /\
  forall name, In name sdc_names ->
    map (fun i => nth_error (tensor (state_key Current name) l) i) (ones (tensor "state/is_sdc" l)) = sdc_part pf cfg name (sc, rows).
Proof.
  intros CV. destruct CV as (A & B & C & D & E & F).
  destruct (whole_agents pf sc cfg l A B C D E F) as (m & c & rows & RO & ST & AT). exists m, c, rows. split; [exact RO|].
  intros name IN.
  assert (IS : In name state_names) by (unfold state_names; unfold sdc_names in IN; cbn [In] in IN |- *; tauto).
  specialize (ST Current name IS).
  assert (ST' : map Some (tensor (state_key Current name) l)
     = map (fun row => state_field pf sc name (current_step cfg) (shown sc row (current_step cfg))) rows).
  { rewrite ST. unfold state_tensor. cbn [frame_steps]. clear. induction rows as [|r rows IH]; [reflexivity|]. cbn [flat_map map app]. f_equal; try exact IH. }
  pose (f := fun r : option nat => match r with Some i => flag (Nat.eqb i (sdc sc)) | None => VInt (-1) end).
  assert (AT' : tensor "state/is_sdc" l = map f rows).
  { apply map_Some_inj. assert (II : In "is_sdc"%string agent_names) by (unfold agent_names; cbn [In]; tauto).
    change ("state/is_sdc"%string) with ("state/" ++ "is_sdc")%string. rewrite (AT "is_sdc"%string II). symmetry. apply map_map. }
  rewrite AT'.
  pose proof (ones_row f rows (sdc sc)) as O.
  assert (HF : forall r, is_one (f r) = match r with Some i => Nat.eqb i (sdc sc) | None => false end)
    by (intros [i|]; cbn; [destruct (Nat.eqb i (sdc sc)); reflexivity|reflexivity]).
  specialize (O HF (rows_indices pf sc cfg m c rows RO) _ (fun row => state_field pf sc name (current_step cfg) (shown sc row (current_step cfg)))).
  rewrite <- ST' in O. unfold sdc_part, sdc_kept. cbn [fst snd].
  set (ex := existsb _ rows) in *. clearbody ex.
  set (os := ones (map f rows)) in *. clearbody os. clear - O. unfold sdc_value.
  destruct ex.
  - destruct os as [|i [|j os]]; cbn [map] in O; try discriminate. cbn [map]. injection O as O. rewrite nth_error_map in O.
    destruct (nth_error (tensor (state_key Current name) l) i); cbn [option_map] in O; [|discriminate]. change (Some (Some v) = Some (state_field pf sc name (current_step cfg) (shown sc (Some (sdc sc)) (current_step cfg)))) in O. congruence.
  - destruct os; cbn [map] in O; [reflexivity|discriminate].
Qed.

Lemma input_parsed l p name : parse_tf_example l = Ok p -> In name ["state/is_sdc"; "state/current/x"; "state/current/y"; "state/current/z"; "state/current/bbox_yaw"]%string ->
  input name p = Ok (tensor name l).
Proof.
  intros H I. rewrite (parse_entries l p H). cbn [In] in I.
  repeat (destruct I as [<-|I]; [reflexivity|]). destruct I.
Qed.

Lemma mapM_inputs ls ps name : mapM parse_tf_example ls = Ok ps ->
  In name ["state/is_sdc"; "state/current/x"; "state/current/y"; "state/current/z"; "state/current/bbox_yaw"]%string ->
  mapM (input name) ps = Ok (map (tensor name) ls).
Proof.
  intros H I. revert ps H. induction ls as [|l ls IH]; intros ps; cbn [mapM map]; [intros X; injection X as <-; reflexivity|].
  destruct (parse_tf_example l) as [p|] eqn:E; cbn [bind]; [|discriminate].
  destruct (mapM parse_tf_example ls) as [qs|] eqn:M; cbn [bind]; [|discriminate]. intros X. injection X as <-.
  cbn [mapM]. rewrite (input_parsed l p name E I). cbn [bind]. rewrite (IH qs eq_refl). reflexivity.
Qed.

Definition at_pair (rows : list (list value)) (bi : nat * nat) : option value :=
  match nth_error rows (fst bi) with Some r => nth_error r (snd bi) | None => None end.

Lemma gather_some rows idx : Forall (fun bi => at_pair rows bi <> None) idx ->
  exists vs, mapM (fun bi => match nth_error rows (fst bi) with
                  | Some r => match nth_error r (snd bi) with Some v => Ok v | None => Err IndexError end
                  | None => Err IndexError
                  end) idx = Ok vs /\ map Some vs = map (at_pair rows) idx.
Proof.
  induction idx as [|bi idx IH]; intros H; [exists []; split; reflexivity|]. inversion H as [|? ? N F]; subst.
  destruct (IH F) as (vs & E & M). cbn [mapM map]. unfold at_pair in N |- *.
  destruct (nth_error rows (fst bi)) as [r|]; [|congruence]. destruct (nth_error r (snd bi)) as [v|]; [|congruence].
  exists (v :: vs). cbn [bind]. rewrite E. cbn [bind map]. split; [reflexivity|]. f_equal. exact M.
Qed.

Lemma pairs_parts (T S : log -> list value) ls :
  map (at_pair (map T ls)) (flat_map (fun bv => map (fun i => (fst bv, i)) (ones (snd bv))) (combine (seq 0 (List.length (map S ls))) (map S ls)))
  = flat_map (fun l => map (fun i => nth_error (T l) i) (ones (S l))) ls.
Proof.
  rewrite map_length.
  assert (G : forall rest pre, ls = pre ++ rest ->
    map (at_pair (map T ls)) (flat_map (fun bv => map (fun i => (fst bv, i)) (ones (snd bv))) (combine (seq (List.length pre) (List.length rest)) (map S rest)))
    = flat_map (fun l => map (fun i => nth_error (T l) i) (ones (S l))) rest).
  { induction rest as [|l rest IH]; intros pre E; [reflexivity|].
    cbn [List.length seq map combine flat_map fst snd]. rewrite map_app. f_equal.
    - rewrite map_map. apply map_ext. intros i. unfold at_pair. cbn [fst snd]. rewrite E at 1. rewrite map_app, nth_error_app2 by (rewrite map_length; lia).
      rewrite map_length, Nat.sub_diag. reflexivity.
    - specialize (IH (pre ++ [l])). rewrite app_length in IH. cbn [List.length] in IH. rewrite Nat.add_1_r in IH. apply IH. rewrite <- app_assoc. exact E. }
  apply (G ls []). reflexivity.
Qed.

Lemma gather_parts pf cfg name (exs : list (scenario * log)) rowss ps :
  In name sdc_names -> mapM parse_tf_example (map snd exs) = Ok ps ->
  Forall2 (fun e rows => forall name, In name sdc_names ->
     map (fun i => nth_error (tensor (state_key Current name) (snd e)) i) (ones (tensor "state/is_sdc" (snd e))) = sdc_part pf cfg name (fst e, rows)) exs rowss ->
  (forall sc, sdc_value pf cfg sc name <> None) ->
  exists vs indices, sdc_indices ps = Ok indices /\ gather (state_key Current name) ps indices = Ok vs
    /\ map Some vs = flat_map (sdc_part pf cfg name) (combine (map fst exs) rowss).
Proof.
  intros IN PS F NN. set (ls := map snd exs) in *.
  assert (X : flat_map (fun l => map (fun i => nth_error (tensor (state_key Current name) l) i) (ones (tensor "state/is_sdc" l))) ls
    = flat_map (sdc_part pf cfg name) (combine (map fst exs) rowss)).
  { subst ls. clear PS. induction F as [|e rows exs rowss H F IH]; [reflexivity|]. cbn [map flat_map combine]. rewrite (H name IN). f_equal. exact IH. }
  unfold sdc_indices. rewrite (mapM_inputs ls ps _ PS) by (cbn [In]; tauto). cbn [bind].
  set (idx := flat_map _ (combine _ _)).
  assert (PP := pairs_parts (tensor (state_key Current name)) (tensor "state/is_sdc") ls).
  fold idx in PP. rewrite X in PP.
  destruct (gather_some (map (tensor (state_key Current name)) ls) idx) as (vs & E & M).
  { apply Forall_forall. intros bi I. assert (J : In (at_pair (map (tensor (state_key Current name)) ls) bi) (flat_map (sdc_part pf cfg name) (combine (map fst exs) rowss)))
      by (rewrite <- PP; apply in_map; exact I).
    apply in_flat_map in J. destruct J as ((sc, rs) & _ & J). unfold sdc_part in J. destruct (sdc_kept _ _); [|destruct J].
    destruct J as [J|[]]. cbn [fst] in J. rewrite <- J. apply NN. }
  exists vs, idx. split; [reflexivity|]. split; [|rewrite M; exact PP].
  unfold gather. rewrite (mapM_inputs ls ps _ PS).
  2:{ unfold sdc_names in IN. cbn [In] in IN |- *. unfold state_key. destruct IN as [<-|[<-|[<-|[<-|[]]]]]; cbn; tauto. }
  cbn [bind]. exact E.
Qed.

Theorem batch_sdc pf cfg : forall (exs : list (scenario * log)) ps,
  Forall (fun e => converted pf cfg (fst e) (snd e)) exs -> mapM parse_tf_example (map snd exs) = Ok ps ->
  exists rowss fields,
    Forall2 (fun e rows => exists modeled context, rows_ok pf (fst e) cfg modeled context rows) exs rowss
    /\ add_sdc_fields ps = Ok fields
    /\ map Some (sdc_x fields) = flat_map (sdc_part pf cfg "x") (combine (map fst exs) rowss)
    /\ map Some (sdc_y fields) = flat_map (sdc_part pf cfg "y") (combine (map fst exs) rowss)
    /\ map Some (sdc_z fields) = flat_map (sdc_part pf cfg "z") (combine (map fst exs) rowss)
    /\ map Some (sdc_yaw fields) = flat_map (sdc_part pf cfg "bbox_yaw") (combine (map fst exs) rowss).
Proof.
  intros exs ps CVS PS.
  assert (W : exists rowss,
    Forall2 (fun e rows => exists modeled context, rows_ok pf (fst e) cfg modeled context rows) exs rowss
    /\ Forall2 (fun e rows => forall name, In name sdc_names ->
     map (fun i => nth_error (tensor (state_key Current name) (snd e)) i) (ones (tensor "state/is_sdc" (snd e))) = sdc_part pf cfg name (fst e, rows)) exs rowss).
  { clear PS. induction CVS as [|e exs CV CVS IH]; [exists []; split; constructor|].
    destruct IH as (rowss & A & B). destruct (example_sdc pf cfg (fst e) (snd e) CV) as (m & c & rows & RO & H).
    exists (rows :: rowss). split; constructor; try assumption. exists m, c. exact RO. }
  destruct W as (rowss & A & B). exists rowss.
  assert (N1 : forall sc, sdc_value pf cfg sc "x" <> None) by (intros sc; discriminate).
  assert (N2 : forall sc, sdc_value pf cfg sc "y" <> None) by (intros sc; discriminate).
  assert (N3 : forall sc, sdc_value pf cfg sc "z" <> None) by (intros sc; discriminate).
  assert (N4 : forall sc, sdc_value pf cfg sc "bbox_yaw" <> None) by (intros sc; discriminate).
  destruct (gather_parts pf cfg "x" exs rowss ps) as (x & idx & I1 & G1 & M1); try assumption; [left; reflexivity|].
  destruct (gather_parts pf cfg "y" exs rowss ps) as (y & idx2 & I2 & G2 & M2); try assumption; [right; left; reflexivity|].
  destruct (gather_parts pf cfg "z" exs rowss ps) as (z & idx3 & I3 & G3 & M3); try assumption; [do 2 right; left; reflexivity|].
  destruct (gather_parts pf cfg "bbox_yaw" exs rowss ps) as (w & idx4 & I4 & G4 & M4); try assumption; [do 3 right; left; reflexivity|].
  rewrite I1 in I2, I3, I4. injection I2 as <-. injection I3 as <-. injection I4 as <-.
  change (state_key Current "x") with "state/current/x"%string in G1. change (state_key Current "y") with "state/current/y"%string in G2.
  change (state_key Current "z") with "state/current/z"%string in G3. change (state_key Current "bbox_yaw") with "state/current/bbox_yaw"%string in G4.
  exists {| sdc_x := x; sdc_y := y; sdc_z := z; sdc_yaw := w |}. split; [exact A|]. split.
  - unfold add_sdc_fields. rewrite I1. cbn [bind]. rewrite G1. cbn [bind]. rewrite G2. cbn [bind]. rewrite G3. cbn [bind]. rewrite G4. reflexivity.
  - cbn [sdc_x sdc_y sdc_z sdc_yaw]. auto.
Qed.

(** One value per example exactly when every self-driving car has a row. *)
Lemma parts_length pf cfg name scs rowss : List.length scs = List.length rowss ->
  (List.length (flat_map (sdc_part pf cfg name) (combine scs rowss)) <= List.length scs)%nat
  /\ (List.length (flat_map (sdc_part pf cfg name) (combine scs rowss)) = List.length scs
      <-> Forall2 (fun sc rows => sdc_kept sc rows = true) scs rowss).
Proof.
  revert rowss. induction scs as [|sc scs IH]; intros [|r rowss]; cbn [List.length]; try discriminate.
  - intros _. cbn. split; [lia|]. split; [constructor|reflexivity].
  - intros L. injection L as L. destruct (IH rowss L) as [LE EQ]. cbn [combine flat_map]. rewrite app_length. unfold sdc_part at 1 3.
    cbn [fst snd]. destruct (sdc_kept sc r) eqn:K; cbn [List.length].
    + split; [lia|]. split; [intros H; constructor; [exact K|apply EQ; lia]|]. intros H. inversion H; subst. apply EQ in H5. lia.
    + split; [lia|]. split; [lia|]. intros H. inversion H; subst. congruence.
Qed.
