(** Proofs about the validation of motion predictions and about the absence of crashes. *)
From Coq Require Import Permutation Sorting.Sorted Lqa String.
From Verif Require Import Base ResultLib ListLib CutoffModel CutoffProofs MotionModel MotionApSpec MotionApProofs MotionSpec MotionProofs MotionStatsProofs.
Open Scope Z_scope.

(** ** Configuration *)
Lemma existsb_false_iff {A} (f : A -> bool) l : existsb f l = false <-> forall a, In a l -> f a = false.
Proof.
  induction l as [|a l IH]; cbn [existsb]; [split; [intros _ ? []|reflexivity]|]. rewrite orb_false_iff, IH. split.
  - intros [H1 H2] b [->|Hb]; auto.
  - intros H. split; [apply H; now left|]. intros b Hb. apply H. now right.
Qed.
Theorem validate_config_iff c :
  validate_config c = Ok tt <->
  psps c <= tsps c /\ psps c <> 0 /\ tsps c <> 0 /\ (psps c | tsps c) /\
  (forall sc, In sc (step_cfgs c) -> 0 <= m_step sc <= Z.quot (fut c * psps c) (tsps c)).
Proof.
  unfold validate_config, prediction_steps, crem, cdiv. rewrite Z.gtb_ltb. destruct (Z.ltb_spec (tsps c) (psps c)) as [H|H].
  { split; [discriminate|]. intros [H' _]. lia. }
  destruct (Z.eqb_spec (psps c) 0) as [H1|H1]; cbn [bind]; [split; [discriminate|tauto]|].
  assert (D : Z.rem (tsps c) (psps c) = 0 <-> (psps c | tsps c)).
  { rewrite Z.rem_divide by exact H1. reflexivity. }
  destruct (Z.eqb_spec (Z.rem (tsps c) (psps c)) 0) as [H2|H2]; cbn [negb].
  2:{ split; [discriminate|]. intros (_ & _ & _ & H3 & _). tauto. }
  destruct (Z.eqb_spec (tsps c) 0) as [H3|H3]; cbn [bind]; [split; [discriminate|tauto]|].
  destruct (existsb _ _) eqn:E.
  - split; [discriminate|]. intros (_ & _ & _ & _ & H4). apply existsb_exists in E. destruct E as (sc & Hi & E).
    specialize (H4 sc Hi). rewrite Z.gtb_ltb in E. lia.
  - split; [intros _|reflexivity]. split; [lia|]. split; [exact H1|]. split; [exact H3|]. split; [now apply D|].
    rewrite existsb_false_iff in E. intros sc Hi. specialize (E sc Hi). rewrite Z.gtb_ltb in E. lia.
Qed.
Theorem validate_config_crash c :
  ~ no_crash (validate_config c) <-> (psps c = 0 /\ 0 <= tsps c) \/ (psps c < 0 /\ tsps c = 0).
Proof.
  unfold validate_config, prediction_steps, crem, cdiv. rewrite Z.gtb_ltb. destruct (Z.ltb_spec (tsps c) (psps c)) as [H|H]; cbn [no_crash].
  { split; [intros N; now elim N|lia]. }
  destruct (Z.eqb_spec (psps c) 0) as [H1|H1]; cbn [bind no_crash]; [split; [lia|discriminate]|].
  destruct (Z.eqb_spec (Z.rem (tsps c) (psps c)) 0) as [H2|H2]; cbn [negb no_crash].
  2:{ split; [intros N; now elim N|]. intros [?|[? E]]; [lia|]. rewrite E in H2. now rewrite Z.rem_0_l in H2. }
  destruct (Z.eqb_spec (tsps c) 0) as [H3|H3]; cbn [bind no_crash]; [split; [lia|discriminate]|].
  destruct (existsb _ _); cbn [no_crash]; split; try lia; intros N; now elim N.
Qed.

(** ** Predictions *)
Lemma zmem_iff x l : zmem x l = true <-> In x l.
Proof.
  unfold zmem. rewrite existsb_exists. split; [intros (y & H & E); apply Z.eqb_eq in E; now subst|].
  intros H. exists x. split; [exact H|apply Z.eqb_refl].
Qed.
Lemma set_eq_iff a b : set_eq a b = true <-> same_ids a b.
Proof.
  unfold set_eq, same_ids. rewrite andb_true_iff, !forallb_forall. split.
  - intros [H1 H2] x. split; intros H; apply zmem_iff; auto.
  - intros H. split; intros x Hx; apply zmem_iff; now apply H.
Qed.
Definition steps_ok (n : Z) (m : mmp) : Prop :=
  forall j t, In j m -> In t (jt_trajs j) -> Z.of_nat (length (tj_x t)) = n /\ Z.of_nat (length (tj_y t)) = n.
Lemma validate_joints_iff n m : forall seen ids,
  validate_joints n seen m = Ok ids <->
  ids = concat (map (fun j => map tj_id (jt_trajs j)) m) /\ steps_ok n m /\
  (if match seen with [] => true | _ => false end then consistent m
   else forall j, In j m -> same_ids (map tj_id (jt_trajs j)) seen).
Proof.
  induction m as [|j m IH]; intros seen ids; cbn [validate_joints map concat].
  - split; [intros [= <-]|intros (-> & _); reflexivity]. split; [reflexivity|]. split; [intros j t []|].
    destruct seen; [|intros j []]. exists [], []. split; [reflexivity|]. split; [intros j []|]. split; [intros j []|intros j j' []].
  - set (L := existsb _ (jt_trajs j)).
    assert (HL : L = false <-> forall t, In t (jt_trajs j) -> Z.of_nat (length (tj_x t)) = n /\ Z.of_nat (length (tj_y t)) = n).
    { unfold L. rewrite existsb_false_iff. split; intros H t Ht; specialize (H t Ht); lia. }
    destruct L.
    { split; [discriminate|]. intros (_ & H & _). exfalso.
      assert (E : true = false); [|discriminate E]. apply HL. intros t Ht. apply (H j t); [now left|exact Ht]. }
    pose proof (proj1 HL eq_refl) as HL'. clear HL.
    assert (S1 : steps_ok n (j :: m) <-> steps_ok n m).
    { split; intros H k t Hk Ht; [apply (H k t); [now right|exact Ht]|]. destruct Hk as [<-|Hk]; [now apply HL'|now apply (H k t)]. }
    rewrite S1. unfold traj_ids.
    destruct seen as [|x seen].
    + assert (Er : set_eq (map tj_id (jt_trajs j)) (map tj_id (jt_trajs j)) = true) by (apply set_eq_iff; intros ?; reflexivity).
      rewrite Er. cbn [negb].
      assert (C : (if match map tj_id (jt_trajs j) with [] => true | _ => false end then consistent m
                   else forall k, In k m -> same_ids (map tj_id (jt_trajs k)) (map tj_id (jt_trajs j))) <-> consistent (j :: m)).
      { destruct (jt_trajs j) as [|t0 ts] eqn:Ej; cbn [map].
        - split.
          + intros (e & r & -> & H1 & H2 & H3). exists (j :: e), r. split; [reflexivity|]. split; [intros k [<-|Hk]; auto|now split].
          + intros (e & r & E & H1 & H2 & H3). destruct e as [|j' e].
            * cbn [app] in E. elim (H2 j); [rewrite <- E; now left|exact Ej].
            * injection E as <- ->. exists e, r. split; [reflexivity|]. split; [intros k Hk; apply H1; now right|now split].
        - split.
          + intros H. exists [], (j :: m). split; [reflexivity|]. split; [intros k []|]. split.
            * intros k [<-|Hk]; [rewrite Ej; discriminate|]. intros E. specialize (H k Hk). rewrite E in H.
              destruct (proj2 (H (tj_id t0))). now left.
            * assert (H' : forall k, In k (j :: m) -> same_ids (map tj_id (jt_trajs k)) (tj_id t0 :: map tj_id ts)).
              { intros k [<-|Hk]; [rewrite Ej; intros x; reflexivity|now apply H]. }
              intros k k' Hk Hk' x. rewrite (H' k Hk x), (H' k' Hk' x). reflexivity.
          + intros (e & r & E & H1 & H2 & H3). destruct e as [|j' e].
            * cbn [app] in E. subst r. intros k Hk. specialize (H3 k j (or_intror Hk) (or_introl eq_refl)).
              rewrite Ej in H3. exact H3.
            * injection E as <- ->. rewrite (H1 j (or_introl eq_refl)) in Ej. discriminate. }
      rewrite <- C. destruct (validate_joints n (map tj_id (jt_trajs j)) m) as [more|] eqn:Em; cbn [bind].
      * apply IH in Em. destruct Em as (E1 & E2 & E3). split.
        -- intros [= <-]. subst more. tauto.
        -- intros (-> & _). now subst more.
      * split; [discriminate|]. intros (_ & H2 & H3). exfalso.
        pose proof (proj2 (IH (map tj_id (jt_trajs j)) _) (conj eq_refl (conj H2 H3))) as F. congruence.
    + destruct (set_eq (map tj_id (jt_trajs j)) (x :: seen)) eqn:Es; cbn [negb].
      * apply set_eq_iff in Es. destruct (validate_joints n (x :: seen) m) as [more|] eqn:Em; cbn [bind].
        -- apply IH in Em. destruct Em as (E1 & E2 & E3). split.
           ++ intros [= <-]. subst more. split; [reflexivity|]. split; [exact E2|]. intros k [<-|Hk]; auto.
           ++ intros (-> & _). now subst more.
        -- split; [discriminate|]. intros (_ & H2 & H3). exfalso.
           assert (F : validate_joints n (x :: seen) m = Ok (concat (map (fun j => map tj_id (jt_trajs j)) m))).
           { apply IH. split; [reflexivity|]. split; [exact H2|]. intros k Hk. apply H3. now right. }
           congruence.
      * split; [discriminate|]. intros (_ & _ & H3). exfalso. rewrite (proj2 (set_eq_iff _ _) (H3 j (or_introl eq_refl))) in Es. discriminate.
Qed.
Lemma mapM_iff {A B} (f : A -> result B) (h : A -> B) (P : A -> Prop) l r :
  (forall a b, f a = Ok b <-> b = h a /\ P a) -> mapM f l = Ok r <-> r = map h l /\ forall a, In a l -> P a.
Proof.
  intros Hf. revert r. induction l as [|a l IH]; intros r; cbn [mapM map].
  - split; [intros [= <-]; split; [reflexivity|intros ? []]|intros [-> _]; reflexivity].
  - destruct (f a) as [b|] eqn:E; cbn [bind].
    + apply Hf in E. destruct E as [-> Pa]. destruct (mapM f l) as [bs|] eqn:El; cbn [bind].
      * pose proof (proj1 (IH _) eq_refl) as [-> Pl]. split; [intros [= <-]|intros [-> _]; reflexivity].
        split; [reflexivity|]. intros x [<-|Hx]; auto.
      * split; [discriminate|]. intros [-> H]. exfalso.
        assert (F : @Err (list B) e = Ok (map h l)); [|discriminate F]. apply IH. split; [reflexivity|]. intros x Hx. apply H. now right.
    + split; [discriminate|]. intros [-> H]. exfalso. assert (F : f a = Ok (h a)) by (apply Hf; split; [reflexivity|apply H; now left]). congruence.
Qed.
Lemma required_ids_iff s r : required_ids s = Ok r ->
  (forall i, In i (sc_predict s) -> 0 <= i < Z.of_nat (length (sc_tracks s))) /\ forall x, In x r <-> to_predict s x.
Proof.
  unfold required_ids, to_predict. generalize (sc_predict s). intros l. revert r. induction l as [|i l IH]; intros r; cbn [mapM].
  - intros [= <-]. split; [intros ? []|]. intros x. cbn [In]. split; [tauto|]. intros (i & t & [] & _).
  - intros H. dbind H a E. dbind H rs Er. apply Ok_inj in H. subst r. destruct (IH rs eq_refl) as [I1 I2].
    destruct ((i >=? Z.of_nat (length (sc_tracks s))) || (i <? 0)) eqn:Ei; [discriminate|].
    apply orb_false_iff in Ei. rewrite Z.geb_leb in Ei. destruct Ei as [Ei1 Ei2]. apply Z.leb_gt in Ei1. apply Z.ltb_ge in Ei2.
    split; [intros k [<-|Hk]; [lia|auto]|].
    dbind E t Et. apply Ok_inj in E. subst a. unfold at_ in Et. destruct (Z.ltb_spec i 0); [lia|].
    destruct (nth_error (sc_tracks s) (Z.to_nat i)) as [t'|] eqn:En; [|discriminate]. injection Et as ->.
    intros x. cbn [In]. rewrite I2. split.
    + intros [<-|(k & t1 & K1 & K2 & K3 & K4)]; [exists i, t; auto|exists k, t1; auto].
    + intros (k & t1 & [<-|K1] & K2 & K3 & K4); [left; congruence|right; exists k, t1; auto].
Qed.
Lemma required_ids_ok s : (forall i, In i (sc_predict s) -> 0 <= i < Z.of_nat (length (sc_tracks s))) -> exists r, required_ids s = Ok r.
Proof.
  unfold required_ids. generalize (sc_predict s). intros l. induction l as [|i l IH]; intros H; cbn [mapM]; [now exists []|].
  destruct IH as [r Hr]; [intros k Hk; apply H; now right|]. specialize (H i (or_introl eq_refl)).
  rewrite Z.geb_leb. destruct (Z.leb_spec (Z.of_nat (length (sc_tracks s))) i); [lia|]. destruct (Z.ltb_spec i 0); [lia|]. cbn [orb].
  assert (A : exists t, at_ (sc_tracks s) i = Ok t).
  { unfold at_. destruct (Z.ltb_spec i 0); [lia|]. destruct (nth_error (sc_tracks s) (Z.to_nat i)) as [t|] eqn:E; [eauto|].
    apply nth_error_None in E. lia. }
  destruct A as [t ->]. cbn [bind]. rewrite Hr. cbn [bind]. eauto.
Qed.
Theorem validate_predictions_iff c p s n : prediction_steps c = Ok n ->
  validate_predictions c p s = Ok tt <-> valid_predictions n p s.
Proof.
  intros Hn. unfold validate_predictions, valid_predictions. rewrite Hn. cbn [bind].
  destruct (String.eqb_spec (pr_id p) (sc_id s)) as [E|E]; cbn [negb]; [|split; [discriminate|tauto]].
  assert (M : forall r, mapM (validate_joints n []) (pr_mms p) = Ok r <->
     r = map (fun m => concat (map (fun j => map tj_id (jt_trajs j)) m)) (pr_mms p) /\ forall m, In m (pr_mms p) -> steps_ok n m /\ consistent m).
  { intros r. apply mapM_iff. intros m b. apply (validate_joints_iff n m [] b). }
  assert (A1 : (forall m, In m (pr_mms p) -> steps_ok n m /\ consistent m) <-> all_steps n p /\ forall m, In m (pr_mms p) -> consistent m).
  { split; [intros H; split; [intros m j t Hm Hj Ht; now apply (proj1 (H m Hm) j)|intros m Hm; now apply H]|].
    intros [H1 H2] m Hm. split; [intros j t Hj Ht; now apply (H1 m j)|now apply H2]. }
  assert (A2 : forall x, In x (concat (map (fun m => concat (map (fun j => map tj_id (jt_trajs j)) m)) (pr_mms p))) <-> predicted p x).
  { intros x. rewrite in_concat. split.
    - intros (l & Hl & Hx). apply in_map_iff in Hl. destruct Hl as (m & <- & Hm). apply in_concat in Hx. destruct Hx as (l & Hl & Hx).
      apply in_map_iff in Hl. destruct Hl as (j & <- & Hj). apply in_map_iff in Hx. destruct Hx as (t & <- & Ht). exists m, j, t. auto.
    - intros (m & j & t & Hm & Hj & Ht & <-). exists (concat (map (fun j => map tj_id (jt_trajs j)) m)).
      split; [now apply in_map_iff; exists m|]. apply in_concat. exists (map tj_id (jt_trajs j)). split; [now apply in_map_iff; exists j|now apply in_map]. }
  destruct (mapM (validate_joints n []) (pr_mms p)) as [ids|] eqn:Em; cbn [bind].
  - clear Em. pose proof (proj1 (M ids) eq_refl) as Em. destruct Em as [-> Em]. apply A1 in Em. destruct Em as [E1 E2].
    destruct (required_ids s) as [r|] eqn:Er; cbn [bind].
    + destruct (required_ids_iff s r Er) as [R1 R2]. destruct (set_eq _ r) eqn:Es.
      * apply set_eq_iff in Es. split; [intros _|reflexivity]. split; [exact E|]. split; [exact E1|]. split; [exact E2|]. split; [exact R1|].
        intros x. now rewrite <- R2, <- (Es x), A2.
      * split; [discriminate|]. intros (_ & _ & _ & _ & H). exfalso.
        assert (F : set_eq (concat (map (fun m => concat (map (fun j => map tj_id (jt_trajs j)) m)) (pr_mms p))) r = true).
        { apply set_eq_iff. intros x. now rewrite A2, R2. } congruence.
    + split; [discriminate|]. intros (_ & _ & _ & H & _). destruct (required_ids_ok s H) as [r Hr]. congruence.
  - split; [discriminate|]. intros (_ & H1 & H2 & _). exfalso.
    pose proof (proj2 (M _) (conj eq_refl (proj2 A1 (conj H1 H2)))) as F. congruence.
Qed.

(** ** No crashes *)
Lemma nc_bind {A B} (r : result A) (f : A -> result B) : no_crash r -> (forall a, r = Ok a -> no_crash (f a)) -> no_crash (bind r f).
Proof. intros H1 H2. destruct r as [a|e]; cbn [bind]; [now apply H2|exact H1]. Qed.
Lemma nc_foldM {A S} (f : S -> A -> result S) l : (forall s a, In a l -> no_crash (f s a)) -> forall s, no_crash (foldM f l s).
Proof.
  induction l as [|a l IH]; intros H s; cbn [foldM]; [exact I|]. apply nc_bind; [apply H; now left|]. intros s' _. apply IH. intros; apply H; now right.
Qed.
Lemma nc_mapM {A B} (f : A -> result B) l : (forall a, In a l -> no_crash (f a)) -> no_crash (mapM f l).
Proof.
  induction l as [|a l IH]; intros H; cbn [mapM]; [exact I|]. apply nc_bind; [apply H; now left|]. intros b _.
  apply nc_bind; [apply IH; intros; apply H; now right|]. intros; exact I.
Qed.
Lemma nc_at {A} (l : list A) i : 0 <= i < Z.of_nat (length l) -> no_crash (at_ l i).
Proof.
  intros H. unfold at_. destruct (Z.ltb_spec i 0); [lia|]. destruct (nth_error l (Z.to_nat i)) eqn:E; [exact I|].
  apply nth_error_None in E. lia.
Qed.
Lemma at_in {A} (l : list A) i a : at_ l i = Ok a -> In a l.
Proof.
  unfold at_. destruct (i <? 0); [discriminate|]. destruct (nth_error l (Z.to_nat i)) eqn:E; [|discriminate].
  intros [= <-]. now apply nth_error_In in E.
Qed.
Section Crash.
Variables (g : geom) (c : mcfg).
Hypothesis W : wf_cfg c.
Lemma step_in_range i : 0 <= i < fut c * psps c / tsps c -> 0 <= (i + 1) * (tsps c / psps c) + hist c <= hist c + fut c.
Proof using W.
  destruct W as (W1 & W2 & [r Hr] & W4 & W5 & _). rewrite Hr. rewrite Z.div_mul by lia. intros H.
  assert (0 < r) by nia. rewrite (Z.div_mul_cancel_r (fut c) r (psps c)) in H by lia.
  assert ((i + 1) * r <= fut c); [|nia]. assert (r * (fut c / r) <= fut c) by (apply Z.mul_div_le; lia). nia.
Qed.
Lemma nc_track_step i : no_crash (track_step c i).
Proof using W. rewrite track_step_ok; [exact I|apply W|destruct W as (_ & H & _); lia]. Qed.
Definition full_track (tr : track) : Prop := Z.of_nat (length (tr_states tr)) = hist c + fut c + 1.
Definition full_traj (t : traj) : Prop :=
  Z.of_nat (length (tj_x t)) = fut c * psps c / tsps c /\ Z.of_nat (length (tj_y t)) = fut c * psps c / tsps c.
Definition full_ids (ids : idmap) : Prop := forall i tr, get_track i ids = Ok tr -> full_track tr.
Definition full_joint (j : joint) : Prop := forall t, In t (jt_trajs j) -> full_traj t.
Definition ok_step (i : Z) : Prop := 0 <= i < fut c * psps c / tsps c.
Lemma nc_state tr i k : full_track tr -> ok_step i -> track_step c i = Ok k -> no_crash (at_ (tr_states tr) k).
Proof using W.
  intros F H E. rewrite track_step_ok in E by (destruct W as (? & ? & _); lia). apply Ok_inj in E. subst k.
  apply nc_at. pose proof (step_in_range i H). rewrite F. lia.
Qed.
Lemma nc_get i ids : no_crash (get_track i ids).
Proof using. unfold get_track. destruct (find _ ids); [exact I|reflexivity]. Qed.
Lemma nc_position t i : full_traj t -> ok_step i -> no_crash (position t i).
Proof using.
  intros [F1 F2] H. unfold position. apply nc_bind; [apply nc_at; rewrite F1; exact H|]. intros x _.
  apply nc_bind; [apply nc_at; rewrite F2; exact H|]. intros; exact I.
Qed.
Lemma nc_displacement_at t tr i : full_traj t -> full_track tr -> ok_step i -> no_crash (displacement_at g c t tr i).
Proof using W.
  intros [F1 F2] F H. unfold displacement_at. apply nc_bind; [apply nc_track_step|]. intros k Ek.
  apply nc_bind; [now apply (nc_state tr i)|]. intros s _. destruct (negb _); [exact I|].
  apply nc_bind; [apply nc_at; rewrite F1; exact H|]. intros x _.
  apply nc_bind; [apply nc_at; rewrite F2; exact H|]. intros; exact I.
Qed.
Lemma upto_ok n i : ok_step n -> In i (upto n) -> ok_step i.
Proof using. unfold ok_step, upto. intros H Hi. apply in_map_iff in Hi. destruct Hi as (k & <- & Hk). apply in_seq in Hk. lia. Qed.
Lemma nc_average t tr n : full_traj t -> full_track tr -> ok_step n -> no_crash (average_displacement g c t tr n).
Proof using W.
  intros F1 F2 H. unfold average_displacement. apply nc_bind.
  - apply nc_foldM. intros s i Hi. apply nc_bind; [apply nc_displacement_at; try assumption; now apply (upto_ok n)|].
    intros [d|] _; exact I.
  - intros [e k] _. destruct (k =? 0); exact I.
Qed.
Lemma nc_joint_loop ids n final ts : full_ids ids -> (forall t, In t ts -> full_traj t) -> ok_step n -> forall q k,
  no_crash (joint_loop g c ids n final ts q k).
Proof using W.
  intros FI. induction ts as [|t ts IH]; intros FT H q k; cbn [joint_loop]; [exact I|].
  apply nc_bind; [apply nc_get|]. intros tr Etr. apply FI in Etr.
  apply nc_bind; [destruct final; [apply nc_displacement_at|apply nc_average]; try assumption; apply FT; now left|].
  intros [d|] _; [|exact I]. apply IH; [|exact H]. intros t' Ht'. apply FT. now right.
Qed.
Lemma nc_min ids n final m : full_ids ids -> (forall j, In j m -> full_joint j) -> ok_step n -> no_crash (min_displacement g c ids n final m).
Proof using W.
  intros FI FM H. unfold min_displacement. apply nc_bind; [|intros; exact I]. apply nc_foldM. intros s j Hj.
  apply nc_bind; [|intros [d|] _; exact I]. unfold joint_displacement. apply nc_bind.
  - apply nc_joint_loop; try assumption. apply FM. rewrite first_k_spec in Hj. unfold first_predictions in Hj.
    destruct (0 <? max_preds c); [now apply in_firstn in Hj|exact Hj].
  - intros [q k] _. destruct (negb _); [exact I|]. destruct (k =? 0); exact I.
Qed.
Lemma speed_scale_ok tr : full_track tr -> match speed_scale g c tr with Ok q => (0 < q)%Q | Err e => e = ValueError end.
Proof using W.
  intros F. destruct W as (W1 & W2 & _ & W4 & W5 & W6 & W7 & W8 & _). unfold speed_scale.
  destruct (Z.ltb_spec (Z.of_nat (length (tr_states tr))) (hist c)); [reflexivity|].
  destruct (Qle_bool (spd_hi c) (spd_lo c)) eqn:El; [reflexivity|].
  assert (L : (spd_lo c < spd_hi c)%Q).
  { apply Qnot_le_lt. intros K. apply Qle_bool_iff in K. congruence. }
  pose proof (nc_at (tr_states tr) (hist c)) as N. unfold full_track in F. specialize (N ltac:(lia)).
  destruct (at_ (tr_states tr) (hist c)) as [s|]; cbn [bind]; [|exact N].
  destruct (Qlt_bool (g_hypot g (st_vx s) (st_vy s)) (spd_lo c)) eqn:E1; [exact W7|].
  destruct (Qlt_bool (spd_hi c) (g_hypot g (st_vx s) (st_vy s))) eqn:E2; [exact W8|].
  apply qlt_false in E1. apply qlt_false in E2. set (v := g_hypot g (st_vx s) (st_vy s)) in *.
  set (f := ((v - spd_lo c) / (spd_hi c - spd_lo c))%Q).
  assert (F1 : (0 <= f)%Q) by (apply Qle_shift_div_l; lra).
  assert (F2 : (f <= 1)%Q) by (apply Qle_shift_div_r; lra).
  setoid_replace (scl_lo c + (scl_hi c - scl_lo c) * f)%Q with (scl_lo c * (1 - f) + scl_hi c * f)%Q by ring.
  destruct (Qlt_le_dec f 1) as [Q1|Q1].
  - assert (0 < scl_lo c * (1 - f))%Q by (apply Qmult_lt_0_compat; lra).
    assert (0 <= scl_hi c * f)%Q by (apply Qmult_le_0_compat; lra). lra.
  - setoid_replace f with 1%Q by lra. lra.
Qed.
Lemma nc_match_loop ids sc ts : full_ids ids -> (forall t, In t ts -> full_traj t) -> ok_step (m_step sc) -> no_crash (match_loop g c ids sc ts).
Proof using W.
  intros FI FT H. induction ts as [|t ts IH]; cbn [match_loop]; [exact I|].
  apply nc_bind; [apply nc_get|]. intros tr Etr. apply FI in Etr. destruct (FT t (or_introl eq_refl)) as [F1 F2].
  apply nc_bind.
  - unfold displacement_vec. apply nc_bind; [apply nc_track_step|]. intros k Ek.
    apply nc_bind; [now apply (nc_state tr (m_step sc))|]. intros s _. destruct (negb _); [exact I|].
    apply nc_bind; [apply nc_at; rewrite F1; exact H|]. intros x _.
    apply nc_bind; [apply nc_at; rewrite F2; exact H|]. intros; exact I.
  - intros [[lon lat]|] _; [|exact I]. pose proof (speed_scale_ok tr Etr) as S. destruct (speed_scale g c tr) as [q|]; cbn [bind]; [|exact S].
    destruct (Qeq_bool q 0) eqn:Eq; [apply Qeq_bool_iff in Eq; lra|].
    apply nc_bind; [apply IH; intros; apply FT; now right|intros; exact I].
Qed.
Lemma nc_is_match ids sc j : full_ids ids -> full_joint j -> ok_step (m_step sc) -> no_crash (is_match g c ids sc j).
Proof using W.
  intros FI FJ H. unfold is_match. apply nc_bind; [now apply nc_match_loop|]. intros ds _. destruct (negb _); exact I.
Qed.
Lemma nc_miss ids sc m : full_ids ids -> (forall j, In j m -> full_joint j) -> ok_step (m_step sc) -> no_crash (miss_rate g c ids sc m).
Proof using W.
  intros FI FM H. unfold miss_rate. rewrite first_k_spec.
  assert (FM' : forall j, In j (first_predictions (max_preds c) m) -> full_joint j).
  { intros j Hj. apply FM. unfold first_predictions in Hj. destruct (0 <? max_preds c); [now apply in_firstn in Hj|exact Hj]. }
  revert FM'. generalize (first_predictions (max_preds c) m). clear m FM. intros m FM.
  generalize false. induction m as [|j m IH]; intros v; cbn [miss_loop]; [destruct v; exact I|].
  apply nc_bind; [apply nc_is_match; try assumption; apply FM; now left|].
  intros [[|]|] _; [exact I| |]; apply IH; intros; apply FM; now right.
Qed.
(** The most confident prediction exists. *)
Lemma argmax_bound l : forall i best v, (argmax l i best v < length l + i)%nat \/ argmax l i best v = best.
Proof using.
  induction l as [|x l IH]; intros i best v; cbn [argmax length]; [now right|].
  destruct (Qlt_bool v x); destruct (IH (S i) i x) as [H|H]; destruct (IH (S i) best v) as [H'|H']; lia.
Qed.
Lemma argmax_zeros k : forall i best v, (0 <= v)%Q -> argmax (repeat 0%Q k) i best v = best.
Proof using.
  induction k as [|k IH]; intros i best v Hv; cbn [repeat argmax]; [reflexivity|].
  destruct (Qlt_bool v 0) eqn:E; [apply qlt_iff in E; lra|]. now apply IH.
Qed.
Lemma argmax_app l1 l2 : forall i best v, exists best' v', (argmax l1 i best v = best') /\ (v <= v')%Q /\ (forall x, In x l1 -> (x <= v')%Q) /\
  argmax (l1 ++ l2) i best v = argmax l2 (i + length l1) best' v'.
Proof using.
  induction l1 as [|x l1 IH]; intros i best v; cbn [argmax app length].
  - exists best, v. split; [reflexivity|]. split; [lra|]. split; [intros ? []|]. now rewrite Nat.add_0_r.
  - destruct (Qlt_bool v x) eqn:E.
    + apply qlt_iff in E. destruct (IH (S i) i x) as (b & w & H1 & H2 & H3 & H4). exists b, w. split; [exact H1|]. split; [lra|].
      split; [intros y [<-|Hy]; [lra|auto]|]. rewrite H4. f_equal. lia.
    + apply qlt_false in E. destruct (IH (S i) best v) as (b & w & H1 & H2 & H3 & H4). exists b, w. split; [exact H1|]. split; [lra|].
      split; [intros y [<-|Hy]; [lra|auto]|]. rewrite H4. f_equal. lia.
Qed.
Lemma qsum_nonpos l : (forall x, In x l -> (x <= 0)%Q) -> (qsum l <= 0)%Q.
Proof using.
  unfold qsum. induction l as [|x l IH]; intros H; cbn [fold_right]; [lra|]. pose proof (H x (or_introl eq_refl)).
  specialize (IH (fun y Hy => H y (or_intror Hy))). lra.
Qed.
Lemma qsum_div l s : ~ (s == 0)%Q -> (qsum (map (fun x => x / s) l) == qsum l / s)%Q.
Proof using.
  intros Hs. unfold qsum. induction l as [|x l IH]; cbn [map fold_right]; [field; exact Hs|]. rewrite IH. field. exact Hs.
Qed.
Lemma qsum_const (k : Q) l : (qsum (map (fun _ : Q => k) l) == inject_Z (Z.of_nat (length l)) * k)%Q.
Proof using.
  unfold qsum. induction l as [|x l IH]; cbn [map fold_right length]; [change (inject_Z (Z.of_nat 0)) with 0%Q; ring|].
  rewrite IH, Nat2Z.inj_succ. unfold Z.succ. rewrite inject_Z_plus. change (inject_Z 1) with 1%Q. ring.
Qed.
Lemma normalized_sum m : m <> [] -> (qsum (normalized_confidences m) == 1)%Q.
Proof using.
  intros H. unfold normalized_confidences. destruct m as [|j m]; [now elim H|]. cbv zeta.
  set (cs := map jt_conf (j :: m)). assert (Hl : length cs = length (j :: m)) by (unfold cs; apply map_length).
  destruct (Qeq_bool (qsum cs) 0) eqn:E.
  - rewrite qsum_const, Hl. field. intros K. change 0%Q with (inject_Z 0) in K. apply (proj1 (inject_Z_injective _ _)) in K. cbn [length] in K. lia.
  - apply Qeq_bool_neq in E. rewrite qsum_div by exact E. field. exact E.
Qed.
Lemma normalized_length m : length (normalized_confidences m) = length m.
Proof using. unfold normalized_confidences. destruct m; [reflexivity|]. now rewrite !map_length. Qed.
Lemma max_index m confs : m <> [] -> resize (normalized_confidences m) (max_preds c) = Ok confs -> (max_element confs < length m)%nat.
Proof using.
  intros Hm. unfold resize. destruct (Z.ltb_spec (max_preds c) 0) as [|HK]; [discriminate|]. intros E. apply Ok_inj in E. subst confs.
  set (k := Z.to_nat (max_preds c)). pose proof (normalized_length m) as Hl.
  destruct (Nat.le_gt_cases k (length m)) as [H|H].
  - replace (k - length (normalized_confidences m))%nat with 0%nat by lia. cbn [repeat]. rewrite app_nil_r.
    assert (HL : length (firstn k (normalized_confidences m)) = k) by (rewrite firstn_length; lia).
    destruct m as [|j m]; [now elim Hm|]. unfold max_element. destruct (firstn k _) as [|x l]; [cbn [length]; lia|].
    cbn [length] in *. destruct (argmax_bound l 1 0 x) as [B|B]; lia.
  - rewrite firstn_all2 by lia. pose proof (normalized_sum m Hm) as S.
    destruct (normalized_confidences m) as [|x l] eqn:En; [cbn [length] in Hl; destruct m; [now elim Hm|discriminate]|].
    cbn [app max_element]. destruct (argmax_app l (repeat 0%Q (k - length (x :: l))) 1 0 x) as (b & v & H1 & H2 & H3 & ->).
    rewrite argmax_zeros.
    + cbn [length] in Hl. destruct (argmax_bound l 1 0 x) as [B|B]; lia.
    + apply Qnot_lt_le. intros K. assert (qsum (x :: l) <= 0)%Q; [|lra]. apply qsum_nonpos. intros y [<-|Hy]; [lra|]. specialize (H3 y Hy). lra.
Qed.
Lemma nc_prediction_box t i tr : full_traj t -> full_track tr -> ok_step i -> no_crash (prediction_box c t i tr).
Proof using W.
  intros FT FR H. unfold prediction_box. apply nc_bind; [now apply nc_position|]. intros ctr _. cbv zeta.
  destruct (Z.ltb_spec (Z.of_nat (length (tj_x t))) 2) as [|H2]; [exact I|]. rewrite (proj1 FT) in H2 |- *. unfold ok_step in H.
  apply nc_bind.
  - destruct (Z.eqb_spec i 0); [|destruct (Z.eqb_spec i (fut c * psps c / tsps c - 1))];
      repeat (apply nc_bind; [apply nc_position; [exact FT|unfold ok_step; lia]|intros ? _]); exact I.
  - intros pts _. apply nc_bind; [apply nc_track_step|]. intros k Ek. apply nc_bind; [now apply (nc_state tr i)|]. intros; exact I.
Qed.
Lemma nc_overlap_tracks i pid b trs : (forall tr, In tr trs -> full_track tr) -> ok_step i -> no_crash (overlap_tracks g c i pid b trs).
Proof using W.
  intros FT H. induction trs as [|tr trs IH]; cbn [overlap_tracks]; [exact I|].
  specialize (IH (fun t Ht => FT t (or_intror Ht))). destruct (tr_id tr =? pid); [exact IH|].
  apply nc_bind; [apply nc_track_step|]. intros k Ek. apply nc_bind; [apply (nc_state tr i); [apply FT; now left|exact H|exact Ek]|].
  intros s _. destruct (negb _); [exact IH|]. destruct (g_overlap g b s); [exact I|exact IH].
Qed.
Lemma nc_overlap_steps ids t trs is : full_ids ids -> full_traj t -> (forall tr, In tr trs -> full_track tr) -> (forall i, In i is -> ok_step i) ->
  no_crash (overlap_steps g c ids t trs is).
Proof using W.
  intros FI FT FR. induction is as [|i is IH]; intros H; cbn [overlap_steps]; [exact I|].
  apply nc_bind; [apply nc_get|]. intros tr Etr. apply FI in Etr. assert (Hi : ok_step i) by (apply H; now left).
  apply nc_bind; [now apply nc_prediction_box|]. intros b _. apply nc_bind; [now apply nc_overlap_tracks|].
  intros [|] _; [exact I|]. apply IH. intros; apply H; now right.
Qed.
Lemma nc_overlap_trajs ids n trs ts : full_ids ids -> (forall t, In t ts -> full_traj t) -> (forall tr, In tr trs -> full_track tr) -> ok_step n ->
  no_crash (overlap_trajs g c ids n trs ts).
Proof using W.
  intros FI FT FR H. induction ts as [|t ts IH]; cbn [overlap_trajs]; [exact I|].
  apply nc_bind; [apply nc_overlap_steps; try assumption; [apply FT; now left|intros i; now apply upto_ok]|].
  intros [|] _; [exact I|]. apply IH. intros; apply FT; now right.
Qed.
Lemma nc_current trs : (forall tr, In tr trs -> full_track tr) -> no_crash (current_tracks c trs) /\
  forall l, current_tracks c trs = Ok l -> forall tr, In tr l -> In tr trs.
Proof using W.
  destruct W as (_ & _ & _ & W4 & W5 & _). induction trs as [|tr trs IH]; intros F; cbn [current_tracks].
  - split; [exact I|]. intros l [= <-] tr [].
  - destruct (IH (fun t Ht => F t (or_intror Ht))) as [I1 I2]. split.
    + apply nc_bind; [apply nc_at; pose proof (F tr (or_introl eq_refl)) as E; unfold full_track in E; lia|].
      intros s _. apply nc_bind; [exact I1|]. intros; exact I.
    + intros l H. dbind H s Es. dbind H l' El. apply Ok_inj in H. subst l. intros x Hx.
      destruct (st_valid s); [destruct Hx as [<-|Hx]; [now left|]|]; right; now apply (I2 l').
Qed.
Lemma nc_overlap ids s n m : full_ids ids -> (forall j, In j m -> full_joint j) -> (forall tr, In tr (sc_tracks s) -> full_track tr) -> ok_step n -> m <> [] ->
  no_crash (overlap_rate g c ids s n m).
Proof using W.
  intros FI FM FR H Hm. unfold overlap_rate. destruct (nc_current _ FR) as [C1 C2]. apply nc_bind; [exact C1|]. intros trs Et.
  apply nc_bind.
  { unfold resize. destruct W as (_ & _ & _ & _ & _ & W6 & _). destruct (Z.ltb_spec (max_preds c) 0); [lia|exact I]. }
  intros confs Ec. pose proof (max_index m confs Hm Ec) as B. apply nc_bind; [apply nc_at; lia|]. intros j Ej. apply at_in in Ej.
  apply nc_bind; [|intros; exact I]. apply nc_overlap_trajs; try assumption; [apply FM; exact Ej|]. intros tr Ht. apply FR. now apply (C2 trs).
Qed.
Lemma nc_classify tr : full_track tr -> no_crash (classify_track g (hist c) tr).
Proof using W.
  intros F. unfold classify_track. destruct (last_valid _ _) as [e|]; [|exact I].
  destruct W as (_ & _ & _ & W4 & W5 & _). unfold full_track in F. apply nc_bind; [apply nc_at; lia|]. intros s _.
  destruct (negb _); [exact I|]. cbv zeta. destruct (g_rotate g _ _) as [dx dy].
  repeat match goal with |- no_crash (if ?b then _ else _) => destruct b end; exact I.
Qed.
Lemma nc_map ids sc soft m : full_ids ids -> (forall j, In j m -> full_joint j) -> ok_step (m_step sc) -> no_crash (map_stats g c ids sc soft m).
Proof using W.
  intros FI FM H. unfold map_stats. cbv zeta. destruct m as [|j0 m]; [exact I|]. destruct (jt_trajs j0) as [|t0 ts]; [exact I|].
  apply nc_bind.
  - unfold prediction_type. apply nc_bind.
    + apply nc_foldM. intros a t _. apply nc_bind; [apply nc_get|]. intros tr Etr. apply FI in Etr. apply nc_bind; [now apply nc_classify|].
      intros [ty|] _; exact I.
    + intros [ty f] _. destruct (negb f); exact I.
  - intros [ty|] _; [|exact I]. apply nc_bind.
    + apply nc_mapM. intros j Hj. apply nc_bind; [|intros; exact I]. apply nc_is_match; try assumption. apply FM.
      unfold considered in Hj. apply (Permutation_in _ (Permutation_sym (sort_desc_perm _))) in Hj. now apply in_firstn in Hj.
    + intros l _. destruct (sample_loop soft l false) as [sm tk]. exact I.
Qed.
Lemma nc_object_type ids ts : no_crash (object_type ids ts).
Proof using.
  unfold object_type. apply nc_foldM. intros ty t _. apply nc_bind; [apply nc_get|]. intros tr _.
  destruct (type_priority (tr_type tr)); [|reflexivity]. destruct (type_priority ty); [exact I|reflexivity].
Qed.
Lemma nc_all_metrics ids s ms : full_ids ids -> (forall m j, In m ms -> In j m -> full_joint j) -> (forall tr, In tr (sc_tracks s) -> full_track tr) ->
  forall r, inv full r -> no_crash (all_metrics g c ids s ms r).
Proof using W.
  intros FI FM FR. induction ms as [|m ms IH]; intros r Hr; cbn [all_metrics]; [exact I|].
  destruct (is_empty_mmp m); [exact I|]. apply nc_bind.
  - unfold prediction_stats. destruct m as [|j0 m]; [exact I|]. apply nc_bind; [apply nc_object_type|]. intros ty _.
    assert (G : forall l, (forall sc, In sc l -> In sc (step_cfgs c)) -> forall q, inv full q ->
      no_crash (foldM (fun r sc => do st <- one_stats g c ids s (j0 :: m) sc; upd (ty, m_step sc) (fun v => ms_acc v st) r) l q)).
    { induction l as [|sc l IHl]; intros Hl q Hq; cbn [foldM]; [exact I|].
      assert (OS : ok_step (m_step sc)) by (apply W; apply Hl; now left).
      assert (FJ : forall j, In j (j0 :: m) -> full_joint j) by (intros j Hj; apply (FM (j0 :: m)); [now left|exact Hj]).
      assert (N : no_crash (one_stats g c ids s (j0 :: m) sc)).
      { unfold one_stats. apply nc_bind; [now apply nc_min|]. intros ? _. apply nc_bind; [now apply nc_min|]. intros ? _.
        apply nc_bind; [now apply nc_miss|]. intros ? _. apply nc_bind; [apply nc_overlap; auto; discriminate|]. intros ? _.
        apply nc_bind; [now apply nc_map|]. intros ? _. apply nc_bind; [now apply nc_map|]. intros; exact I. }
      destruct (one_stats g c ids s (j0 :: m) sc) as [st|] eqn:Es; cbn [bind]; [|exact N].
      apply one_stats_full in Es. destruct Hq as [Q1 Q2]. rewrite upd_ok by assumption. cbn [bind].
      apply IHl; [intros; apply Hl; now right|]. split; [now apply full_oput|now apply upd_t_sorted]. }
    apply G; auto.
  - intros r' E. apply IH; [intros m' j Hm; apply FM; now right|].
    eapply prediction_stats_inv; [exact (fun _ H => H)|exact full_ms_add| |exact Hr|exact E]. intros. eapply one_stats_full; eassumption.
Qed.
End Crash.
Lemma nc_validate_joints n m : forall seen, no_crash (validate_joints n seen m).
Proof.
  induction m as [|j m IH]; intros seen; cbn [validate_joints]; [exact I|]. destruct (existsb _ _); [reflexivity|].
  destruct (negb _); [reflexivity|]. apply nc_bind; [apply IH|intros; exact I].
Qed.
Lemma nc_required (s : scenario) l : no_crash (mapM (fun i => if (i >=? Z.of_nat (length (sc_tracks s))) || (i <? 0) then Err ValueError else
                 do t <- at_ (sc_tracks s) i; Ok (tr_id t)) l).
Proof.
  apply nc_mapM. intros i _. destruct ((i >=? Z.of_nat (length (sc_tracks s))) || (i <? 0)) eqn:E; [reflexivity|].
  apply nc_bind; [apply nc_at; rewrite Z.geb_leb in E; lia|intros; exact I].
Qed.
Lemma build_idmap_in s l : forall m ids, (forall p, In p m -> In (snd p) (sc_tracks s)) ->
  foldM (fun m i => if (i >=? Z.of_nat (length (sc_tracks s))) || (i <? 0) then Err ValueError else
                    do t <- at_ (sc_tracks s) i; Ok ((tr_id t, t) :: m)) l m = Ok ids -> forall p, In p ids -> In (snd p) (sc_tracks s).
Proof.
  induction l as [|i l IH]; intros m ids Hm; cbn [foldM]; [now intros [= <-]|]. intros H. dbind H m' E. eapply IH; [|exact H].
  destruct ((i >=? Z.of_nat (length (sc_tracks s))) || (i <? 0)); [discriminate|]. dbind E t Et. apply Ok_inj in E. subst m'.
  apply at_in in Et. intros p [<-|Hp]; auto.
Qed.
Theorem compute_stats_no_crash g c p s : wf_cfg c -> full_tracks c s -> no_crash (compute_stats g c p s).
Proof.
  intros W F. unfold compute_stats.
  assert (Es : prediction_steps c = Ok (fut c * psps c / tsps c)).
  { destruct W as (W1 & W2 & _ & W4 & W5 & _). unfold prediction_steps, cdiv. destruct (Z.eqb_spec (tsps c) 0); [lia|].
    now rewrite Z.quot_div_nonneg by nia. }
  apply nc_bind.
  { destruct (validate_config c) as [|e] eqn:E; [exact I|].
    assert (D : {e = ValueError} + {e <> ValueError}) by decide equality. destruct D as [|N]; [assumption|].
    exfalso. assert (K : ~ no_crash (validate_config c)) by now rewrite E. apply validate_config_crash in K. destruct W as (? & ? & _). lia. }
  intros [] _. apply nc_bind.
  { unfold validate_predictions. destruct (negb _); [reflexivity|]. rewrite Es. cbn [bind]. apply nc_bind; [apply nc_mapM; intros; apply nc_validate_joints|].
    intros ids _. apply nc_bind; [apply nc_required|]. intros r _. destruct (set_eq _ _); [exact I|reflexivity]. }
  intros [] Ep. apply (validate_predictions_iff c p s _ Es) in Ep. destruct Ep as (_ & St & _).
  apply nc_bind.
  { unfold build_idmap. apply nc_foldM. intros m i _. destruct ((i >=? Z.of_nat (length (sc_tracks s))) || (i <? 0)) eqn:E; [reflexivity|].
    apply nc_bind; [apply nc_at; rewrite Z.geb_leb in E; lia|intros; exact I]. }
  intros ids Ei. apply nc_bind; [unfold validate_tracks; destruct (forallb _ _); [exact I|reflexivity]|]. intros [] _.
  apply nc_bind; [unfold validate_prediction_ids; destruct (forallb _ _); [exact I|reflexivity]|]. intros [] _.
  apply nc_all_metrics; auto.
  - intros i tr H. apply F. unfold get_track in H. destruct (find _ ids) as [q|] eqn:Eq; [|discriminate]. injection H as <-.
    apply find_some in Eq. apply (build_idmap_in s _ [] ids) with (p := q) in Ei; [exact Ei|intros ? []|apply Eq].
  - intros m j Hm Hj t Ht. exact (St m j t Hm Hj Ht).
  - split; constructor.
Qed.
Theorem motion_metrics_no_crash g c l : wf_cfg c -> (forall p s, In (p, Some s) l -> full_tracks c s) -> no_crash (motion_metrics g c l).
Proof.
  intros W F. unfold motion_metrics, total_stats. apply nc_bind; [|intros; exact I].
  rewrite total_stats_fold by (split; constructor). apply nc_bind; [|intros; exact I]. apply nc_mapM. intros [p [s|]] Hp; unfold scenario_stats; cbn [fst snd].
  - apply compute_stats_no_crash; [exact W|now apply (F p)].
  - reflexivity.
Qed.
