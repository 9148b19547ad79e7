(** When the rollouts of the tutorial differ, and examples. *)
From Coq Require Import Reals Lra.
From Verif Require Import Base ResultLib ListLib MonadLib SimModel SimSpec SimProofs ExtrapModel ExtrapSpec ExtrapProofs.
Open Scope list_scope.
Open Scope R_scope.

Lemma max_of_zero sc : agents sc <> [] -> largest 0 (map (displacement center_x) (agents sc)) -> largest 0 (map (displacement center_y) (agents sc)) ->
  largest 0 (map (displacement center_z) (agents sc)) -> max_of sc = zero4.
Proof.
  intros NE Hx Hy Hz. unfold max_of, max_action. rewrite !map_map. unfold velocity_of. cbn [qx qy qz qh]. rewrite largest_zero.
  assert (G : forall f, largest 0 (map (displacement f) (agents sc)) -> largest_of (map (fun t => displacement f t) (agents sc)) = 0).
  { intros f H. eapply largest_unique; [|exact H]. apply largest_ok. destruct (agents sc); [contradiction|discriminate]. }
  now rewrite !G.
Qed.
Lemma agents_nonempty sc : simulable sc -> agents sc <> [].
Proof. intros (_ & (id & Hid) & _) C. apply in_sim_ids in Hid. fold (agents sc) in Hid. rewrite C in Hid. destruct Hid. Qed.
Lemma scene_still noise sc r r' : max_of sc = zero4 -> scene_of noise sc r = scene_of noise sc r'.
Proof.
  intros M. unfold scene_of. apply ext_nth. intros o. rewrite !mapi_nth. destruct (nth_error (agents sc) o) as [t|]; [|reflexivity]. cbn [option_map].
  assert (E : object_states noise sc r o t = object_states noise sc r' o t).
  { unfold object_states. rewrite M. apply map_ext. intros k. unfold at_turn, zero4. cbn [qx qy qz qh]. f_equal; ring. }
  cbv zeta. now rewrite E.
Qed.
(** All rollouts are the same whatever the noise, exactly if no agent moves forward along any axis and some agent stands along each. *)
Lemma rollouts_same name sc : simulable sc ->
  ((forall noise r js js', tutorial_rollouts noise name sc = Ok r -> In js (joint_scenes r) -> In js' (joint_scenes r) -> js = js') <->
   largest 0 (map (displacement center_x) (agents sc)) /\ largest 0 (map (displacement center_y) (agents sc)) /\
   largest 0 (map (displacement center_z) (agents sc))).
Proof.
  intros H. split.
  - intros A. set (noise := fun r k o : nat => V4 (INR r) (INR r) (INR r) 0).
    pose proof (rollouts_ok noise name sc H) as E.
    destruct (rollouts_value noise name sc _ E) as (_ & L & mx & my & mz & Hx & Hy & Hz & V).
    set (rr := Rollouts (Some name) (map (scene_of noise sc) (seq 0 32))) in *.
    destruct (nth_error (joint_scenes rr) 0) as [js|] eqn:E0; [|apply nth_error_None in E0; lia].
    destruct (nth_error (joint_scenes rr) 1) as [js'|] eqn:E1; [|apply nth_error_None in E1; lia].
    assert (Q : js = js') by (apply (A noise rr); [exact E|eapply nth_error_In; exact E0|eapply nth_error_In; exact E1]). subst js'.
    destruct (agents sc) as [|t l] eqn:Ea; [destruct (agents_nonempty sc H Ea)|].
    destruct (proj2 (V O js E0) O t eq_refl) as (s & tr & Es & Etr & _ & X0 & Y0 & Z0 & _).
    destruct (proj2 (V 1%nat js E1) O t eq_refl) as (s' & tr' & Es' & Etr' & _ & X1 & Y1 & Z1 & _).
    rewrite Es in Es'. apply some_inj in Es'. subst s'. rewrite Etr in Etr'. apply some_inj in Etr'. subst tr'.
    assert (K : forall a v m f g, drift a v m f = drift a v m g -> f O = 0 -> g O = 1 -> m = 0).
    { intros a v m f g D F G. apply (f_equal (fun l => nth O l 0)) in D. unfold drift in D. rewrite <- (cons_seq 79 0) in D.
      cbn [map nth sum_upto] in D. rewrite F, G in D. lra. }
    rewrite X0 in X1. rewrite Y0 in Y1. rewrite Z0 in Z1.
    rewrite (K _ _ _ _ _ X1) in Hx by reflexivity. rewrite (K _ _ _ _ _ Y1) in Hy by reflexivity. rewrite (K _ _ _ _ _ Z1) in Hz by reflexivity. tauto.
  - intros (Hx & Hy & Hz) noise r js js' E I J. rewrite rollouts_ok in E by exact H. apply Ok_inj in E. subst r. cbn [joint_scenes] in I, J.
    apply in_map_iff in I as (i & <- & _). apply in_map_iff in J as (j & <- & _). apply scene_still.
    apply max_of_zero; auto. now apply agents_nonempty.
Qed.

(** One car drives towards negative x, the other one stands. *)
Definition car (x : nat -> R) : list (state R) := map (fun i => State (x i) 0 0 0 4 2 1 true) (seq 0 11).
Definition street (v : R) : scenario R := Scenario [Track 1 1 (car (fun i => v * INR i)); Track 2 1 (car (fun _ => 0))] 0 [].
Lemma street_agents v : agents (street v) = tracks (street v).
Proof. reflexivity. Qed.
Lemma street_simulable v : simulable (street v).
Proof.
  split; [exists 11%nat; split; [lia|]; split; [discriminate|]; split; [lia|]; intros t [<-|[<-|[]]]; reflexivity|].
  assert (Rq : forall id, required (street v) id <-> id = 1%Z \/ id = 2%Z).
  { intros id. rewrite <- in_sim_ids. fold (agents (street v)). rewrite street_agents. cbn [street tracks map track_id In]. intuition congruence. }
  split; [exists 1%Z; apply Rq; now left|]. intros id Hid. apply Rq in Hid as [E|E]; subst id.
  - exists 0%nat. split; [reflexivity|]. intros [|[|[|j]]]; cbn; intros; try discriminate; reflexivity.
  - exists 1%nat. split; [reflexivity|]. intros [|[|[|j]]]; cbn; intros; try discriminate; reflexivity.
Qed.
Lemma street_displacement v : map (displacement center_x) (agents (street v)) = [v; 0].
Proof. rewrite street_agents. unfold street, car, displacement. cbn [tracks map states nth_error seq s_valid center_x]. f_equal; [|f_equal; lra]. rewrite !S_INR. ring. Qed.
Lemma street_other v f : (forall x, f (State x 0 0 0 4 2 1 true) = 0) -> map (displacement f) (agents (street v)) = [0; 0].
Proof. intros E. rewrite street_agents. unfold street, car, displacement. cbn [tracks map states nth_error seq s_valid]. rewrite !E. f_equal; [lra|f_equal; lra]. Qed.
(** Whatever the noise, all 32 rollouts of a moving car are the same. *)
Lemma noise_refuted : exists sc t, simulable sc /\ In t (agents sc) /\ displacement center_x t <> 0 /\
  forall noise name r js js', tutorial_rollouts noise name sc = Ok r -> In js (joint_scenes r) -> In js' (joint_scenes r) -> js = js'.
Proof.
  exists (street (-1)), (Track 1 1 (car (fun i => -1 * INR i))). split; [apply street_simulable|]. split; [now left|].
  split.
  - pose proof (street_displacement (-1)) as E. rewrite street_agents in E. cbn [street tracks map] in E. injection E as E _. rewrite E. lra.
  - intros noise name. pose proof (proj2 (rollouts_same name (street (-1)) (street_simulable _))) as G. apply G. clear G.
    rewrite street_displacement, !street_other by reflexivity. unfold largest. cbn [In].
    split; [|split]; (split; [auto|intros x [<-|[<-|[]]]; lra]).
Qed.
(** A car that drives towards positive x makes them differ. *)
Lemma street_differs : simulable (street 1) /\ ~ largest 0 (map (displacement center_x) (agents (street 1))).
Proof. split; [apply street_simulable|]. rewrite street_displacement. intros [_ H]. specialize (H 1 (or_introl eq_refl)). lra. Qed.
Lemma street_drive : exists r js tr, tutorial_rollouts (fun _ _ _ => zero4) 7 (street 1) = Ok r /\ nth_error (joint_scenes r) 31 = Some js /\
  nth_error js 0 = Some tr /\ nth_error (sim_x tr) 79 = Some 90 /\ validate_scenario_rollouts r (street 1) SIM_AGENTS = Ok tt.
Proof.
  pose proof (rollouts_ok (fun _ _ _ => zero4) 7 (street 1) (street_simulable 1)) as E.
  destruct (rollouts_value _ _ _ _ E) as (_ & L & mx & my & mz & _ & _ & _ & V). pose proof (rollouts_valid _ _ _ _ E) as Va.
  set (rr := Rollouts (Some 7%Z) (map (scene_of (fun _ _ _ => zero4) (street 1)) (seq 0 32))) in *.
  destruct (nth_error (joint_scenes rr) 31) as [js|] eqn:E0; [|apply nth_error_None in E0; lia].
  destruct (proj2 (V 31%nat js E0) O (Track 1 1 (car (fun i => 1 * INR i))) eq_refl) as (s & tr & Es & Etr & _ & X & _).
  exists rr, js, tr. split; [exact E|]. split; [exact E0|]. split; [exact Etr|]. split; [|exact Va].
  rewrite X. unfold drift. rewrite nth_error_map', (nth_error_nth' (seq 0 80) O) by (rewrite seq_length; lia). rewrite seq_nth by lia. cbn [option_map Nat.add].
  f_equal. assert (D : displacement center_x (Track 1 1 (car (fun i => 1 * INR i))) = 1).
  { pose proof (street_displacement 1) as D. rewrite street_agents in D. cbn [street tracks map] in D. injection D as D _. exact D. }
  rewrite D. cbn [states] in Es. unfold car in Es. cbn [seq map nth_error] in Es. apply some_inj in Es. subst s. cbn [center_x].
  assert (Z : forall n, sum_upto (fun _ => qx zero4) n = 0) by (induction n as [|n IH]; cbn [sum_upto]; [reflexivity|rewrite IH; cbn [zero4 qx]; ring]).
  rewrite Z. rewrite !INR_IZR_INZ. cbn [Z.of_nat Pos.of_succ_nat Pos.succ]. lra.
Qed.
