(** A platform that meets the contract, concrete scenarios, and the failures they show. *)
From Coq Require Import String Sorting.Permutation Sorting.Sorted.
From Verif Require Import Base ResultLib ListLib ScenarioModel ScenarioSpec ScenarioProofs
  ScenarioOutcomeProofs ScenarioFloatProofs.
Open Scope list_scope.
Open Scope Z_scope.

Fixpoint insert (lt : nat -> nat -> bool) (x : nat) (l : list nat) : list nat :=
  match l with
  | [] => [x]
  | y :: l' => if lt y x then y :: insert lt x l' else x :: l
  end.
Definition isort (lt : nat -> nat -> bool) (l : list nat) : list nat := fold_right (insert lt) [] l.

Lemma insert_perm lt x l : Permutation (insert lt x l) (x :: l).
Proof.
  induction l as [|y l IH]; [apply Permutation_refl|]. cbn [insert]. destruct (lt y x).
  - eapply Permutation_trans; [apply perm_skip, IH|]. apply perm_swap.
  - apply Permutation_refl.
Qed.
Lemma isort_perm lt l : Permutation (isort lt l) l.
Proof.
  induction l as [|x l IH]; [apply Permutation_refl|]. cbn [isort fold_right].
  eapply Permutation_trans; [apply insert_perm|]. apply perm_skip. exact IH.
Qed.

Lemma not_after_trans P lt : strict_weak P lt -> forall a b c, P a -> P b -> P c ->
  lt b a = false -> lt c b = false -> lt c a = false.
Proof.
  intros (_ & T & N) a b c Pa Pb Pc H1 H2. destruct (lt c a) eqn:E; [|reflexivity].
  destruct (lt a b) eqn:E1; [rewrite (T c a b) in H2; congruence|].
  destruct (lt b c) eqn:E2; [rewrite (T b c a) in H1; congruence|].
  destruct (N a b c Pa Pb Pc E1 H1 E2 H2) as [_ X]. congruence.
Qed.

Lemma insert_sorted P lt x l : strict_weak P lt -> P x -> (forall y, In y l -> P y) ->
  StronglySorted (fun a b => lt b a = false) l ->
  StronglySorted (fun a b => lt b a = false) (insert lt x l).
Proof.
  intros SW Px. induction l as [|y l IH]; intros Pl S; [repeat constructor|].
  inversion S as [|? ? S' F]; subst. cbn [insert]. destruct (lt y x) eqn:E.
  - constructor; [apply IH; [intros; apply Pl; right; assumption|exact S']|].
    rewrite Forall_forall in *. intros z Hz. apply (Permutation_in z (insert_perm lt x l)) in Hz.
    destruct Hz as [<-|Hz]; [|apply F; exact Hz].
    destruct (lt x y) eqn:E'; [|reflexivity]. destruct SW as (I & T & _).
    assert (Py : P y) by (apply Pl; left; reflexivity).
    rewrite <- (I x Px). symmetry. apply (T x y x); assumption.
  - constructor; [exact S|]. rewrite Forall_forall in *. intros z [<-|Hz]; [exact E|].
    apply (not_after_trans P lt SW x y z); try assumption.
    + apply Pl; left; reflexivity.
    + apply Pl; right; assumption.
    + apply F; exact Hz.
Qed.

Lemma isort_sorted P lt l : strict_weak P lt -> (forall y, In y l -> P y) ->
  StronglySorted (fun a b => lt b a = false) (isort lt l).
Proof.
  intros SW. induction l as [|x l IH]; intros Pl; [constructor|]. cbn [isort fold_right].
  apply (insert_sorted P); [exact SW|apply Pl; left; reflexivity| |apply IH; intros; apply Pl; right; assumption].
  intros y Hy. apply Pl. right. apply (Permutation_in y (isort_perm lt l)). exact Hy.
Qed.

(** Insertion sort and, for the C library functions, simple stand-ins. *)
Definition ref_pf : platform := {|
  speed_of := fun x y => (Qabs x + Qabs y)%Q;
  yaw_of := fun x y => 0%Q;
  hypot_of := fun x y => (Qabs x + Qabs y)%Q;
  length_of := fun v => (Qabs (px v) + Qabs (py v) + Qabs (pz v))%Q;
  std_sort := isort;
  hash_order := fun l => l |}.
(** The same with hash sets enumerated backwards. *)
Definition rev_pf : platform := {|
  speed_of := fun x y => (Qabs x + Qabs y)%Q;
  yaw_of := fun x y => 0%Q;
  hypot_of := fun x y => (Qabs x + Qabs y)%Q;
  length_of := fun v => (Qabs (px v) + Qabs (py v) + Qabs (pz v))%Q;
  std_sort := isort;
  hash_order := @rev nat |}.

Lemma ref_ok : platform_ok ref_pf.
Proof.
  split; [|intros l; apply Permutation_refl]. intros lt l SW. split; [apply isort_perm|].
  apply (isort_sorted (fun x => In x l)); [exact SW|intros; assumption].
Qed.
Lemma rev_ok : platform_ok rev_pf.
Proof.
  split; [|intros l; apply Permutation_sym, Permutation_rev]. intros lt l SW.
  split; [apply isort_perm|]. apply (isort_sorted (fun x => In x l)); [exact SW|intros; assumption].
Qed.

(** ** Scenarios *)
Definition at_x (x : fl) (v : bool) : object_state :=
  {| center_x := x; center_y := Fin 0; center_z := 1; st_length := 4; st_width := 2; st_height := 1;
     heading := 0; velocity_x := 3; velocity_y := 0; valid := v |}.
Definition mk_track (id : Z) (xs : list (fl * bool)) : track :=
  {| tr_id := id; object_type := 1; states := map (fun p => at_x (fst p) (snd p)) xs |}.
Definition mk_scenario (ts : list track) (required_tracks : list Z) (dyn : list (list lane_state))
    (fs : list map_feature) : scenario :=
  {| scenario_id := "abc"; timestamps_seconds := [0; (1#10); (7#10)]%Q; tracks := ts;
     dynamic_map_states := dyn; map_features := fs; sdc_track_index := 0; interest_ids := [42];
     tracks_to_predict := map (fun i => {| track_index := i; difficulty := 2 |}) required_tracks |}.
Definition cfg_with (agents modeled past future samples lights : Z) : config :=
  {| max_num_agents := agents; max_num_modeled_agents := modeled; num_past_steps := past;
     num_future_steps := future; max_roadgraph_samples := samples; source_polyline_spacing := (1#2)%Q;
     polyline_sample_spacing := 0; polygon_sample_spacing := 0;
     max_traffic_light_control_points_per_step := lights |}.

Definition three (x : Z) : list (fl * bool) := repeat (Fin (inject_Z x), true) 3.
Definition sc1 : scenario :=
  mk_scenario [mk_track 7 (three 0); mk_track 42 (three 5); mk_track 9 (three 2); mk_track 8 (three 30)]
    [1; 3; 1; 0] [[]; [{| ls_lane := 77; ls_state := 4; stop_point := V3 1 2 3 |}]]
    [ {| mf_id := 100; mf_data := Crosswalk [V3 0 0 0; V3 1 0 0; V3 1 1 0] |};
      {| mf_id := 101; mf_data := Lane 2 [V3 0 0 0; V3 (1#2) 0 0; V3 1 0 0] |};
      {| mf_id := 102; mf_data := StopSign (V3 5 5 5) |} ].
Definition cfg1 : config := cfg_with 5 2 2 2 6 2.

Lemma sc1_ok : well_formed sc1 /\ representable sc1 cfg1 /\ finite_now sc1 cfg1
  /\ convertible sc1 cfg1 /\ capped cfg1 (predictable sc1 cfg1) = [1; 3]%nat.
Proof.
  split; [|split; [|split; [|split]]].
  - split; [discriminate|]. split; [cbv; split; congruence|].
    intros tr [<-|[<-|[<-|[<-|[]]]]]; reflexivity.
  - split; [cbv; split; congruence|cbv; congruence].
  - intros i s [H|H].
    + destruct i as [|[|[|[|[|i]]]]]; cbn in H; try discriminate; injection H as <-; split; discriminate.
    + cbn in H. injection H as <-. split; discriminate.
  - split.
    + cbv; split; congruence.
    + cbv; split; congruence.
    + reflexivity.
    + intros r [<-|[<-|[<-|[<-|[]]]]]; cbv; split; congruence.
    + intros m [<-|[<-|[<-|[]]]]; cbn; try exact I; discriminate.
  - reflexivity.
Qed.

Definition the_log (r : result log) : log := match r with Ok l => l | Err _ => [] end.

Lemma sc1_converts : exists l, scenario_to_example ref_pf sc1 cfg1 = Ok l
  /\ tensor "state/tracks_to_predict" l = [VInt 1; VInt 1; VInt 0; VInt 0; VInt (-1)]
  /\ map (fun v => match v with VFloat (Fin q) => Qred q | _ => 0%Q end) (tensor "state/id" l)
     = [8; 42; 7; 9; -1]%Q
  /\ tensor "roadgraph_samples/id" l = map VInt [101; 101; 101; 102; 100; 100]
  /\ tensor "traffic_light_state/current/id" l = [VInt 77; VInt (-1)]
  /\ tensor "state/current/timestamp_micros" l
     = [VInt 100000; VInt 100000; VInt 100000; VInt 100000; VInt (-1)].
Proof.
  exists (the_log (scenario_to_example ref_pf sc1 cfg1)).
  repeat split; vm_compute; reflexivity.
Qed.

(** *** NaN coordinates *)
Definition sc_nan : scenario :=
  mk_scenario [mk_track 1 [(Fin 0, true)]; mk_track 2 [(Fin 1, true)]; mk_track 3 [(NaN, true)];
               mk_track 4 [(Fin 2, true)]] [0] [] [].
Lemma nan_not_weak :
  ~ strict_weak (fun i => (i < List.length (tracks sc_nan))%nat) (context_before ref_pf sc_nan 0 0).
Proof.
  intros (_ & _ & N).
  assert (L : (1 < List.length (tracks sc_nan) /\ 2 < List.length (tracks sc_nan)
              /\ 3 < List.length (tracks sc_nan))%nat) by (cbn; lia). destruct L as (L1 & L2 & L3).
  destruct (N 1%nat 2%nat 3%nat L1 L2 L3) as [X _]; try (vm_compute; reflexivity).
  vm_compute in X. discriminate.
Qed.

(** *** Fewer slots than modeled agents *)
Lemma few_slots : scenario_to_example ref_pf sc1 (cfg_with 1 2 2 2 6 2) = Err RuntimeError.
Proof. vm_compute. reflexivity. Qed.

(** *** A polygon without points *)
Definition sc_poly : scenario :=
  mk_scenario [mk_track 7 (three 0)] [0] [] [{| mf_id := 1; mf_data := Driveway [] |}].
Lemma empty_polygon : well_formed sc_poly /\ scenario_to_example ref_pf sc_poly cfg1 = Err IndexError.
Proof.
  split; [|vm_compute; reflexivity]. split; [discriminate|]. split; [cbv; split; congruence|].
  intros tr [<-|[]]; reflexivity.
Qed.

(** *** A required track beyond the tracks *)
Definition sc_req : scenario := mk_scenario [mk_track 7 (three 0)] [0; 1] [] [].
Lemma required_missing : well_formed sc_req
  /\ scenario_to_example ref_pf sc_req cfg1 = Err CheckFailed.
Proof.
  split; [|vm_compute; reflexivity]. split; [discriminate|]. split; [cbv; split; congruence|].
  intros tr [<-|[]]; reflexivity.
Qed.

(** *** A negative number of modeled agents is no limit *)
Lemma negative_cap : exists l, scenario_to_example ref_pf sc1 (cfg_with 5 (-1) 2 2 6 2) = Ok l
  /\ counter "Num_Modeled_Agents" l = 3.
Proof.
  exists (the_log (scenario_to_example ref_pf sc1 (cfg_with 5 (-1) 2 2 6 2))).
  split; vm_compute; reflexivity.
Qed.

(** *** More traffic light steps than timestamps *)
Definition sc_lights : scenario :=
  mk_scenario [mk_track 7 (three 0)] [0] (repeat [{| ls_lane := 5; ls_state := 1; stop_point := V3 0 0 0 |}] 4) [].
Lemma late_lights : exists l, scenario_to_example ref_pf sc_lights (cfg_with 5 2 2 2 6 2) = Ok l
  /\ tensor "traffic_light_state/future/timestamp_micros" l = [VInt 699999; VInt (-1000000)]
  /\ tensor "traffic_light_state/future/valid" l = [VInt 1; VInt 0; VInt 1; VInt 0].
Proof.
  exists (the_log (scenario_to_example ref_pf sc_lights (cfg_with 5 2 2 2 6 2))).
  repeat split; vm_compute; reflexivity.
Qed.

(** *** More lights than control points: the padding counter goes below zero *)
Lemma padded_negative : exists l, scenario_to_example ref_pf sc_lights (cfg_with 5 2 2 2 6 0) = Ok l
  /\ counter "Padded_Traffic_Light_State_Features" l = -4.
Proof.
  exists (the_log (scenario_to_example ref_pf sc_lights (cfg_with 5 2 2 2 6 0))).
  split; vm_compute; reflexivity.
Qed.

(** *** Two modeled agents with one id *)
Definition sc_dup : scenario :=
  mk_scenario [mk_track 7 (three 0); mk_track 7 (three 5)] [0; 1] [] [].
Lemma dup_order : exists l l', scenario_to_example ref_pf sc_dup cfg1 = Ok l
  /\ scenario_to_example rev_pf sc_dup cfg1 = Ok l'
  /\ tensor "state/current/x" l <> tensor "state/current/x" l'.
Proof.
  exists (the_log (scenario_to_example ref_pf sc_dup cfg1)),
         (the_log (scenario_to_example rev_pf sc_dup cfg1)).
  split; [vm_compute; reflexivity|]. split; [vm_compute; reflexivity|]. vm_compute. discriminate.
Qed.

(** *** Large ids *)
Definition sc_ids : scenario :=
  mk_scenario [mk_track 16777216 (three 0); mk_track 16777217 (three 5)] [0; 1] [] [].
Lemma ids_collide : exists l v, scenario_to_example ref_pf sc_ids (cfg_with 2 2 2 2 6 2) = Ok l
  /\ tensor "state/id" l = [v; v].
Proof.
  exists (the_log (scenario_to_example ref_pf sc_ids (cfg_with 2 2 2 2 6 2))). eexists.
  split; vm_compute; reflexivity.
Qed.
