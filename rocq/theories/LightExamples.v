(** Scenes in which a red light is reported or missed. *)
From Coq Require Import QArith Lqa ZArith List Lia Bool.
From Verif Require Import Base LightModel LightSpec LightProofs LightWholeProofs LightScene LightTrueProofs.
Import ListNotations.
Open Scope Q_scope.

Definition set_of : list Z -> list Z := nodup Z.eq_dec.
Lemma set_of_lists : lists_set set_of.
Proof. intros l. split; [apply NoDup_nodup|]. intros x. apply nodup_In. Qed.
Definition stop_signal (id : Z) (p : pt) : signal := {| s_lane := id; s_state := 4; s_stop := p |}.
Definition main_lane : list pt := [(0, 0); (10, 0)].
Definition branch_lane : list pt := [(15 # 2, 1); (20, 1)].
Definition drive (a b : pt) : list vpt := [(a, true); (b, true)].

(** On the main lane, through its red light, yet the branch lane is taken for the nearest. *)
Definition main_signals := [[stop_signal 1 (7, 0)]; [stop_signal 1 (7, 0)]].
Definition branch_signals := [[stop_signal 2 (79 # 10, 1)]; [stop_signal 2 (79 # 10, 1)]].
Lemma on_main p : snd p == 0 -> 0 <= fst p <= 10 -> nearest_lane (usable [main_lane; branch_lane] [1%Z; 2%Z]) p 1.
Proof.
  intros Y X. exists main_lane, 0%nat, (0, 0), (10, 0), (fst p / 10). split; [now left|]. split; [split; reflexivity|].
  split; [split; [apply Qle_shift_div_l|apply Qle_shift_div_r]; lra|].
  intros lane' id' k' a' b' y Hi Hne Hs Hy. assert (lane' = branch_lane).
  { destruct Hi as [E|[E|[]]]; apply pair_equal_spec in E; destruct E as [<- <-]; [congruence|reflexivity]. }
  subst lane'. destruct Hs as [Ha Hb]. destruct k' as [|[|k']]; cbn in Ha, Hb; try discriminate.
  injection Ha as <-. injection Hb as <-. unfold dist2, between. cbn [fst snd].
  setoid_replace ((fst p - (0 + fst p / 10 * (10 - 0))) * (fst p - (0 + fst p / 10 * (10 - 0))) + (snd p - (0 + fst p / 10 * (0 - 0))) * (snd p - (0 + fst p / 10 * (0 - 0))))
    with 0 by (rewrite Y; field).
  setoid_replace (snd p - (1 + y * (1 - 1))) with (-1) by (rewrite Y; ring).
  set (z := fst p - _). assert (Z := sqq z). lra.
Qed.
Lemma missed : exists order lanes ids signals p q out, lists_set order /\
  nearest_lane (usable lanes ids) q 1 /\ nearest_lane (usable lanes ids) p 1 /\
  (exists s, shown signals 0 1 s /\ shown signals 1 1 s /\ red s /\ along q (s_stop s) (1, 0) < 0 /\ 0 < along p (s_stop s) (1, 0)) /\
  (exists lane, first_lane (usable lanes ids) 1 lane /\ straight lane (1, 0)) /\
  compute_red_light_violation order 2 [drive q p] [true] lanes ids signals = Ok out /\ cell_of out 0 1 = Some false.
Proof.
  exists set_of, [main_lane; branch_lane], [1%Z; 2%Z], main_signals, (8, 0), (6, 0), [[false; false]].
  split; [apply set_of_lists|]. split; [apply on_main; cbn; lra|]. split; [apply on_main; cbn; lra|]. split; [|split; [|split; vm_compute; reflexivity]].
  - exists (stop_signal 1 (7, 0)). split; [exists [], []; split; [reflexivity|split; [reflexivity|intros x []]]|].
    split; [exists [], []; split; [reflexivity|split; [reflexivity|intros x []]]|]. split; [now right|]. split; reflexivity.
  - exists main_lane. split; [exists 0%nat; split; [reflexivity|intros i' l' L; lia]|].
    intros k a b [Ha Hb]. destruct k as [|[|k]]; cbn in Ha, Hb; try discriminate. injection Ha as <-. injection Hb as <-.
    exists 10. cbn. split; [lra|]. split; reflexivity.
Qed.
Lemma spurious : exists order lanes ids signals p q out, lists_set order /\
  nearest_lane (usable lanes ids) q 1 /\ nearest_lane (usable lanes ids) p 1 /\
  (forall t l s, nth_error signals t = Some l -> In s l -> s_lane s <> 1%Z) /\
  compute_red_light_violation order 2 [drive q p] [true] lanes ids signals = Ok out /\ cell_of out 0 1 = Some true.
Proof.
  exists set_of, [main_lane; branch_lane], [1%Z; 2%Z], branch_signals, (8, 0), (6, 0), [[false; true]].
  split; [apply set_of_lists|]. split; [apply on_main; cbn; lra|]. split; [apply on_main; cbn; lra|]. split; [|split; vm_compute; reflexivity].
  intros [|[|t]] l s Hl Hs; cbn in Hl; try (destruct t; discriminate); injection Hl as <-; destruct Hs as [<-|[]]; discriminate.
Qed.
(** A far lane with more points. *)
Definition road_lane : list pt := [(10, 0); (20, 0)].
Definition far_lane : list pt := [(1000, 1000); (1001, 1000); (1002, 1000)].
Lemma padding : exists order lanes ids lane id signals p q out out', lists_set order /\
  (forall x, In x lane -> 900 <= fst x /\ 900 <= snd x) /\ ~ In id ids /\ (forall l s, In l signals -> In s l -> s_lane s <> id) /\
  (- (100) <= fst p <= 100 /\ - (100) <= snd p <= 100) /\ (- (100) <= fst q <= 100 /\ - (100) <= snd q <= 100) /\
  compute_red_light_violation order 2 [drive q p] [true] lanes ids signals = Ok out /\ cell_of out 0 1 = Some true /\
  compute_red_light_violation order 2 [drive q p] [true] (lanes ++ [lane]) (ids ++ [id]) signals = Ok out' /\ cell_of out' 0 1 = Some false.
Proof.
  exists set_of, [road_lane], [1%Z], far_lane, 2%Z, [[stop_signal 1 (20, 0)]; [stop_signal 1 (20, 0)]], (21, 0), (19, 0), [[false; true]], [[false; false]].
  split; [apply set_of_lists|]. split; [intros x [<-|[<-|[<-|[]]]]; cbn; lra|]. split; [intros [H|[]]; discriminate|].
  split; [intros l s [<-|[<-|[]]] [<-|[]]; discriminate|]. cbn [fst snd]. split; [lra|]. split; [lra|].
  repeat split; vm_compute; reflexivity.
Qed.
(** A signal that is listed from the second step on only. *)
Definition long_lane : list pt := [(-20, 0); (20, 0)].
Lemma unlisted : exists order lanes ids signals p q s out, lists_set order /\
  (exists lane, first_lane (usable lanes ids) 1 lane /\ straight lane (1, 0)) /\
  nth_error signals 0 = Some [] /\ nth_error signals 1 = Some [s] /\ s_lane s = 1%Z /\
  0 < along q (s_stop s) (1, 0) /\
  compute_red_light_violation order 2 [drive q p] [true] lanes ids signals = Ok out /\ cell_of out 0 1 = Some true.
Proof.
  exists set_of, [long_lane], [1%Z], [[]; [stop_signal 1 (-5, 0)]], (1, 0), (-1, 0), (stop_signal 1 (-5, 0)), [[false; true]].
  split; [apply set_of_lists|]. split.
  { exists long_lane. split; [exists 0%nat; split; [reflexivity|intros i' l' L; lia]|].
    intros k a b [Ha Hb]. destruct k as [|[|k]]; cbn in Ha, Hb; try discriminate. injection Ha as <-. injection Hb as <-.
    exists 40. cbn. split; [lra|]. split; reflexivity. }
  repeat split; vm_compute; reflexivity.
Qed.
(** A scene that meets the hypotheses. *)
Lemma scene_bounded : bounded [road_lane; far_lane] [[stop_signal 1 (11, 0)]; [stop_signal 1 (11, 0)]] [drive (10, 0) (12, 0)].
Proof.
  unfold bounded, near_origin. split; [|split].
  - intros lane p [<-|[<-|[]]] H; cbn in H; repeat (destruct H as [<-|H]; [cbn; lra|]); destruct H.
  - intros l s [<-|[<-|[]]] [<-|[]]; cbn; lra.
  - intros row c [<-|[]] [<-|[<-|[]]]; cbn; lra.
Qed.
