(** Proofs about the camera-only tutorial. *)
From Coq Require Import QArith String Lia.
From Verif Require Import Base ResultLib MonadLib ListLib CotModel CotSpec.
Open Scope list_scope.

Lemma mapM_seq {B} (f : nat -> result B) n out : mapM f (seq 0 n) = Ok out <-> List.length out = n /\ forall i, (i < n)%nat -> exists b, nth_error out i = Some b /\ f i = Ok b.
Proof.
  enough (G : forall n s out, mapM f (seq s n) = Ok out <-> List.length out = n /\ forall i, (i < n)%nat -> exists b, nth_error out i = Some b /\ f (s + i)%nat = Ok b) by apply (G n 0%nat).
  clear. induction n as [|n IH]; intros s out; cbn [seq mapM].
  - split; [intros H; apply Ok_inj in H; subst out; split; [reflexivity|intros i Hi; lia]|]. intros [H _]. now destruct out.
  - split.
    + intros H. apply bind_inv in H as (b & Hb & H). apply bind_inv in H as (l & Hl & H). apply Ok_inj in H. subst out. apply IH in Hl as [L N]. split; [cbn; now rewrite L|].
      intros [|i] Hi; [exists b; split; [reflexivity|now rewrite Nat.add_0_r]|]. destruct (N i ltac:(lia)) as (c & Hc & Fc). exists c. split; [exact Hc|]. now replace (s + S i)%nat with (S s + i)%nat by lia.
    + intros [L N]. destruct out as [|b l]; [discriminate|]. destruct (N 0%nat ltac:(lia)) as (b' & Hb & Fb). cbn in Hb. injection Hb as <-. rewrite Nat.add_0_r in Fb. rewrite Fb. cbn [bind].
      rewrite (proj2 (IH (S s) l)); [reflexivity|]. split; [now injection L|]. intros i Hi. destruct (N (S i) ltac:(lia)) as (c & Hc & Fc). exists c. split; [exact Hc|]. now replace (S s + i)%nat with (s + S i)%nat by lia.
Qed.
Lemma item_ok {A} (l : list A) i a : item l i = Ok a <-> nth_error l i = Some a.
Proof. unfold item. destruct (nth_error l i); split; congruence. Qed.
Lemma objects_exact context time boxes classes scores os : make_inference_objects context time boxes classes scores = Ok os <->
  List.length os = List.length boxes /\ forall i, (i < List.length boxes)%nat -> exists o, nth_error os i = Some o /\ detection context time boxes classes scores i o.
Proof.
  unfold make_inference_objects. rewrite mapM_seq. split; intros [L N]; (split; [exact L|]); intros i Hi; destruct (N i Hi) as (o & Ho & H); exists o; (split; [exact Ho|]).
  - apply bind_inv in H as (row & Hrow & H). apply bind_inv in H as (box & Hbox & H). apply bind_inv in H as (cls & Hc & H). apply bind_inv in H as (score & Hs & H). apply bind_inv in H as (ty & Ht & H).
    apply Ok_inj in H. subst o. apply item_ok in Hrow, Hc, Hs. unfold seven in Hbox. destruct (Nat.eqb_spec (List.length row) 7) as [E|E]; [|discriminate]. apply Ok_inj in Hbox. subst box.
    unfold type_name in Ht. destruct (Z.leb_spec 0 cls); cbn [andb] in Ht; [|discriminate]. destruct (Z.leb_spec cls 4); [|discriminate]. apply Ok_inj in Ht. subst ty.
    unfold detection. cbn. repeat split; try assumption; lia.
  - destruct o as [cx t b ty id sc]. unfold detection in H. cbn in H. destruct H as (-> & -> & Hb & Hc & Hs & -> & L7 & R). apply item_ok in Hb, Hc, Hs. rewrite Hb. cbn [bind]. unfold seven. rewrite L7. cbn [Nat.eqb bind].
    rewrite Hc. cbn [bind]. rewrite Hs. cbn [bind]. unfold type_name. destruct (Z.leb_spec 0 ty); [|lia]. destruct (Z.leb_spec ty 4); [|lia]. reflexivity.
Qed.
Lemma ids_distinct context time boxes classes scores os : make_inference_objects context time boxes classes scores = Ok os -> NoDup (map o_id os).
Proof.
  intros H. apply objects_exact in H as [L N]. apply (NoDup_nth_error (map o_id os)). intros i j Hi E. rewrite map_length, L in Hi.
  destruct (N i Hi) as (o & Ho & D). rewrite !nth_error_map', Ho in E. destruct (nth_error os j) as [o'|] eqn:Ho'; [|discriminate]. cbn in E.
  assert (Hj : (j < List.length boxes)%nat) by (rewrite <- L; apply nth_error_Some; congruence). destruct (N j Hj) as (o2 & Ho2 & D2). rewrite Ho' in Ho2. injection Ho2 as <-.
  destruct D as (_ & _ & _ & _ & _ & D & _). destruct D2 as (_ & _ & _ & _ & _ & D2 & _). rewrite D, D2 in E. now injection E.
Qed.

(** * Files *)
Definition spread {A} (n : nat) (pre : list A) (ss : list (list A)) : Prop :=
  List.length ss = n /\ forall s l, nth_error ss s = Some l -> forall k, nth_error l k = nth_error pre (s + k * n).
Lemma append_at_nth {A} (ss : list (list A)) : forall i a s, nth_error (append_at ss i a) s = match nth_error ss s with Some l => Some (if (s =? i)%nat then l ++ [a] else l) | None => None end.
Proof.
  induction ss as [|x ss IH]; intros i a s; [now destruct i, s|]. destruct i as [|i], s as [|s]; cbn [append_at nth_error Nat.eqb]; try reflexivity; [now destruct (nth_error ss s)|apply IH].
Qed.
Lemma append_at_length {A} (ss : list (list A)) : forall i a, List.length (append_at ss i a) = List.length ss.
Proof. induction ss as [|x ss IH]; intros [|i] a; cbn; auto. Qed.
Lemma spread_step {A} n (pre : list A) ss o : (0 < n)%nat -> spread n pre ss -> spread n (pre ++ [o]) (append_at ss (List.length pre mod n) o).
Proof.
  intros Hn [L H]. split; [now rewrite append_at_length|]. intros s l Hs k. rewrite append_at_nth in Hs. destruct (nth_error ss s) as [l0|] eqn:E; [|discriminate]. injection Hs as <-.
  assert (Sn : (s < n)%nat) by (rewrite <- L; apply nth_error_Some; congruence). specialize (H s l0 E). set (c := List.length pre) in *.
  pose proof (Nat.div_mod c n ltac:(lia)) as D. pose proof (Nat.mod_upper_bound c n ltac:(lia)) as B.
  destruct (Nat.eqb_spec s (c mod n)) as [Es|Es].
  - assert (Ll : List.length l0 = (c / n)%nat).
    { apply Nat.le_antisymm.
      - apply nth_error_None. rewrite H. apply nth_error_None. fold c. lia.
      - destruct (c / n)%nat as [|q] eqn:Eq; [lia|]. assert (X : nth_error l0 q <> None); [|apply nth_error_Some in X; lia]. rewrite H. apply nth_error_Some. fold c. nia. }
    destruct (Nat.lt_trichotomy k (c / n)) as [K|[K|K]].
    + rewrite nth_error_app1 by lia. rewrite H. rewrite nth_error_app1; [reflexivity|]. fold c. nia.
    + rewrite nth_error_app2 by lia. replace (k - List.length l0)%nat with O by lia. rewrite nth_error_app2; fold c; [|nia]. replace (s + k * n - c)%nat with O by nia. reflexivity.
    + rewrite (proj2 (nth_error_None _ _)) by (rewrite app_length; cbn; lia). symmetry. apply nth_error_None. rewrite app_length. cbn. fold c. nia.
  - assert (NE : (s + k * n)%nat <> c).
    { intros C. apply Es. rewrite <- C. rewrite Nat.mod_add by lia. symmetry. now apply Nat.mod_small. }
    rewrite H. destruct (Nat.lt_ge_cases (s + k * n) c) as [K|K]; [now rewrite nth_error_app1 by (fold c; lia)|].
    rewrite (proj2 (nth_error_None pre _)) by (fold c; lia). symmetry. apply nth_error_None. rewrite app_length. cbn. fold c. lia.
Qed.
Lemma distribute_ok {A} n : (0 < n)%nat -> forall (objects pre : list A) ss, spread n pre ss -> exists out, distribute n (List.length pre) objects ss = Ok out /\ spread n (pre ++ objects) out.
Proof.
  intros Hn. induction objects as [|o objects IH]; intros pre ss H; cbn [distribute].
  - exists ss. rewrite app_nil_r. auto.
  - destruct (Nat.eqb_spec n 0); [lia|]. destruct (IH (pre ++ [o]) (append_at ss (List.length pre mod n) o)) as (out & Ho & Hs); [now apply spread_step|].
    exists out. rewrite app_length in Ho. cbn [List.length] in Ho. split; [exact Ho|]. now rewrite <- app_assoc in Hs.
Qed.
Lemma pack_exact {A} n (objects : list A) : (0 < n)%nat -> exists ss, pack n objects = Ok ss /\ List.length ss = n /\
  forall s l, nth_error ss s = Some l -> forall k, nth_error l k = nth_error objects (s + k * n).
Proof.
  intros Hn. apply (distribute_ok n Hn objects [] (repeat [] n)). split; [apply repeat_length|]. intros s l H k. apply nth_error_In, repeat_spec in H. subst l. destruct (s + k * n)%nat; now destruct k.
Qed.
Lemma pack_zero {A} (objects : list A) : pack 0 objects = match objects with [] => Ok [] | _ => Err RuntimeError end.
Proof. now destruct objects. Qed.

(** * Evaluation *)
Definition counts_b (g : truth) : bool := negb (String.eqb (g_camera g) "") && negb (g_points g =? 0)%Z.
Lemma counts_iff g : counts_b g = true <-> counts g.
Proof.
  unfold counts_b, counts. destruct (String.eqb_spec (g_camera g) ""), (Z.eqb_spec (g_points g) 0); cbn; split; try discriminate; try tauto; intros [A B]; contradiction.
Qed.
Lemma counted_iff l k : counted l k <-> k = filter counts_b l.
Proof.
  split.
  - induction 1 as [|g l k A _ IH|g l k A _ IH]; cbn [filter]; [reflexivity| |].
    + apply counts_iff in A. now rewrite A, IH.
    + destruct (counts_b g) eqn:E; [apply counts_iff in E; contradiction|exact IH].
  - intros ->. induction l as [|g l IH]; cbn [filter]; [constructor|]. destruct (counts_b g) eqn:E; [constructor; [now apply counts_iff|exact IH]|]. apply counted_no; [|exact IH]. intros A. apply counts_iff in A. congruence.
Qed.
Definition level_of (g : truth) : Z := if (g_level g =? 0)%Z then 2%Z else g_level g.
Lemma truths_value l : forall c, parse_truths l c = TruthColumns (t_frame_id c ++ map g_time (filter counts_b l)) (t_bbox c ++ map synced_box (filter counts_b l))
  (t_type c ++ map g_type (filter counts_b l)) (t_difficulty c ++ map level_of (filter counts_b l)).
Proof.
  induction l as [|g l IH]; intros c; cbn [parse_truths filter map]; [rewrite !app_nil_r; now destruct c|]. assert (E : counts_b g = negb (String.eqb (g_camera g) "") && negb (g_points g =? 0)%Z) by reflexivity. rewrite E. clear E.
  destruct (String.eqb (g_camera g) ""); cbn [negb andb]; [apply IH|]. destruct (g_points g =? 0)%Z; cbn [negb]; [apply IH|]. cbv zeta. rewrite IH. cbn [t_frame_id t_bbox t_type t_difficulty map]. now rewrite <- !app_assoc.
Qed.
Lemma predictions_value l : forall c, parse_predictions l c = PredictionColumns (p_frame_id c ++ map o_time l) (p_bbox c ++ map o_box l) (p_type c ++ map o_type l) (p_score c ++ map o_score l).
Proof.
  induction l as [|o l IH]; intros c; cbn [parse_predictions map]; [rewrite !app_nil_r; now destruct c|]. rewrite IH. cbn. now rewrite <- !app_assoc.
Qed.
Lemma parse_value truths predictions : parse_metrics_objects truths predictions =
  match predictions, filter counts_b truths with
  | [], _ | _, [] => Err ValueError
  | _, k => Ok (PredictionColumns (map o_time predictions) (map o_box predictions) (map o_type predictions) (map o_score predictions),
                TruthColumns (map g_time k) (map synced_box k) (map g_type k) (map level_of k))
  end.
Proof.
  unfold parse_metrics_objects. rewrite truths_value, predictions_value. cbv zeta. cbn [t_frame_id t_bbox t_type t_difficulty p_frame_id p_bbox p_type p_score app].
  destruct predictions as [|o ps]; [reflexivity|]. destruct (filter counts_b truths) as [|g gs]; reflexivity.
Qed.
Lemma parse_rows truths predictions p t : parse_metrics_objects truths predictions = Ok (p, t) -> exists kept, counted truths kept /\
  List.length (t_frame_id t) = List.length kept /\ List.length (t_bbox t) = List.length kept /\ List.length (t_type t) = List.length kept /\ List.length (t_difficulty t) = List.length kept /\
  (forall i g, nth_error kept i = Some g -> truth_row t i g) /\
  List.length (p_frame_id p) = List.length predictions /\ List.length (p_bbox p) = List.length predictions /\ List.length (p_type p) = List.length predictions /\ List.length (p_score p) = List.length predictions /\
  forall i o, nth_error predictions i = Some o -> prediction_row p i o.
Proof.
  intros H. rewrite parse_value in H. exists (filter counts_b truths). split; [now apply counted_iff|].
  assert (E : p = PredictionColumns (map o_time predictions) (map o_box predictions) (map o_type predictions) (map o_score predictions) /\
              t = TruthColumns (map g_time (filter counts_b truths)) (map synced_box (filter counts_b truths)) (map g_type (filter counts_b truths)) (map level_of (filter counts_b truths))).
  { destruct predictions as [|o ps]; [discriminate|]. destruct (filter counts_b truths) as [|g gs]; [discriminate|]. apply Ok_inj in H. now injection H as <- <-. }
  destruct E as [-> ->]. cbn [t_frame_id t_bbox t_type t_difficulty p_frame_id p_bbox p_type p_score]. rewrite !map_length. repeat (split; [reflexivity|]). split.
  - intros i g Hi. unfold truth_row. cbn [t_frame_id t_bbox t_type t_difficulty]. rewrite !nth_error_map', Hi. cbn [option_map]. split; [reflexivity|]. split; [reflexivity|]. split.
    + exists (synced_box g). split; [reflexivity|]. unfold synced_box. destruct (g_synced g) as [b|]; [now left|now right].
    + exists (level_of g). split; [reflexivity|]. unfold level_of. destruct (Z.eqb_spec (g_level g) 0); [now left|now right].
  - repeat (split; [reflexivity|]). intros i o Hi. unfold prediction_row. cbn [p_frame_id p_bbox p_type p_score]. rewrite !nth_error_map', Hi. auto.
Qed.
Lemma parse_error truths predictions : (parse_metrics_objects truths predictions = Err ValueError <-> predictions = [] \/ forall g, In g truths -> ~ counts g) /\
  forall e, parse_metrics_objects truths predictions = Err e -> e = ValueError.
Proof.
  rewrite parse_value. split.
  - destruct predictions as [|o ps]; [split; auto|]. destruct (filter counts_b truths) as [|g gs] eqn:E.
    + split; [|reflexivity]. intros _. right. intros g Hg C. apply counts_iff in C. assert (X : In g (filter counts_b truths)) by (now apply filter_In). rewrite E in X. destruct X.
    + split; [discriminate|]. intros [C|C]; [discriminate|]. assert (X : In g (filter counts_b truths)) by (rewrite E; now left). apply filter_In in X as [X1 X2]. apply counts_iff in X2. now destruct (C g).
  - intros e. destruct predictions, (filter counts_b truths); congruence.
Qed.
Lemma frames_refuted : exists g h predictions p t, counts g /\ counts h /\ g_context g <> g_context h /\ parse_metrics_objects [g; h] predictions = Ok (p, t) /\ nth_error (t_frame_id t) 0 = nth_error (t_frame_id t) 1.
Proof.
  exists (Truth "a" 1 "FRONT" 5 1 None 1), (Truth "b" 1 "FRONT" 5 1 None 1), [Object "a" 1 [] 1 (1%Z, 0%nat) 1%Q]. do 2 eexists.
  split; [split; discriminate|]. split; [split; discriminate|]. split; [discriminate|]. split; [reflexivity|reflexivity].
Qed.
Lemma missing_box_refuted : exists g o p t, g_synced g = None /\ parse_metrics_objects [g] [o] = Ok (p, t) /\ t_bbox t = [[0; 0; 0; 0; 0; 0; 0]]%Q.
Proof. exists (Truth "a" 1 "FRONT" 5 1 None 1), (Object "a" 1 [] 1 (1%Z, 0%nat) 1%Q). do 2 eexists. split; [reflexivity|]. split; reflexivity. Qed.

(** * Values by name *)
Lemma values_general keep names ap aph apl : forall i vs, metric_values keep i names ap aph apl = Ok vs -> forall n k v, In (n, k, v) vs <->
  exists j, nth_error names j = Some n /\ keep n = true /\ ((k = 0%nat /\ nth_error ap (i + j) = Some v) \/ (k = 1%nat /\ nth_error aph (i + j) = Some v) \/ (k = 2%nat /\ nth_error apl (i + j) = Some v)).
Proof.
  induction names as [|m names IH]; intros i vs H n k v; cbn [metric_values] in H.
  - apply Ok_inj in H. subst vs. split; [intros []|]. intros ([|j] & C & _); discriminate.
  - destruct (keep m) eqn:K.
    + apply bind_inv in H as (a & Ha & H). apply bind_inv in H as (h & Hh & H). apply bind_inv in H as (l & Hl & H). apply bind_inv in H as (rest & Hr & H). apply Ok_inj in H. subst vs. apply item_ok in Ha, Hh, Hl.
      cbn [In]. rewrite (IH _ _ Hr). split.
      * intros [E|[E|[E|(j & H1 & H2 & H3)]]]; [injection E as <- <- <-..|]; [exists O; rewrite Nat.add_0_r; cbn; auto 8 ..|].
        exists (S j). replace (i + S j)%nat with (i + 1 + j)%nat by lia. auto.
      * intros ([|j] & H1 & H2 & H3).
        -- cbn in H1. injection H1 as <-. rewrite Nat.add_0_r in H3. destruct H3 as [(-> & H3)|[(-> & H3)|(-> & H3)]]; [left|right; left|right; right; left]; congruence.
        -- right. right. right. exists j. replace (i + 1 + j)%nat with (i + S j)%nat by lia. auto.
    + rewrite (IH _ _ H). split.
      * intros (j & H1 & H2 & H3). exists (S j). replace (i + S j)%nat with (i + 1 + j)%nat by lia. auto.
      * intros ([|j] & H1 & H2 & H3); [cbn in H1; congruence|]. exists j. replace (i + 1 + j)%nat with (i + S j)%nat by lia. auto.
Qed.
Lemma values_exact keep names ap aph apl vs : metric_values keep 0 names ap aph apl = Ok vs -> forall n k v, In (n, k, v) vs <->
  exists j, nth_error names j = Some n /\ keep n = true /\ ((k = 0%nat /\ nth_error ap j = Some v) \/ (k = 1%nat /\ nth_error aph j = Some v) \/ (k = 2%nat /\ nth_error apl j = Some v)).
Proof. intros H. apply (values_general keep names ap aph apl 0 vs H). Qed.
Lemma values_accepts keep names ap aph apl : (forall j n, nth_error names j = Some n -> keep n = true -> (j < List.length ap)%nat /\ (j < List.length aph)%nat /\ (j < List.length apl)%nat) <->
  exists vs, metric_values keep 0 names ap aph apl = Ok vs.
Proof.
  enough (G : forall i, (forall j n, nth_error names j = Some n -> keep n = true -> (i + j < List.length ap)%nat /\ (i + j < List.length aph)%nat /\ (i + j < List.length apl)%nat) <->
    exists vs, metric_values keep i names ap aph apl = Ok vs) by apply (G 0%nat).
  induction names as [|m names IH]; intros i; cbn [metric_values].
  - split; [intros _; now exists []|]. intros _ [|j] n C; discriminate.
  - assert (T : forall (P : Prop), ((forall j n, nth_error (m :: names) j = Some n -> keep n = true -> (i + j < List.length ap)%nat /\ (i + j < List.length aph)%nat /\ (i + j < List.length apl)%nat) <->
       (keep m = true -> (i < List.length ap)%nat /\ (i < List.length aph)%nat /\ (i < List.length apl)%nat) /\ exists vs, metric_values keep (i + 1) names ap aph apl = Ok vs)).
    { intros _. rewrite <- IH. split.
      - intros H. split; [intros K; specialize (H O m eq_refl K); lia|]. intros j n Hj K. specialize (H (S j) n Hj K). lia.
      - intros [H0 H] [|j] n Hj K; [cbn in Hj; injection Hj as <-; specialize (H0 K); lia|]. specialize (H j n Hj K). lia. }
    rewrite (T True). clear T. destruct (keep m).
    + split.
      * intros [H (vs & Hv)]. destruct (H eq_refl) as (A & B & C). apply nth_error_Some in A, B, C. unfold item.
        destruct (nth_error ap i); [|contradiction]. destruct (nth_error aph i); [|contradiction]. destruct (nth_error apl i); [|contradiction]. cbn [bind]. rewrite Hv. cbn [bind]. now eexists.
      * intros (vs & H). apply bind_inv in H as (a & Ha & H). apply bind_inv in H as (h & Hh & H). apply bind_inv in H as (l & Hl & H). apply bind_inv in H as (rest & Hr & H). apply item_ok in Ha, Hh, Hl.
        split; [|now exists rest]. intros _. repeat split; apply nth_error_Some; congruence.
    + split; [now intros [_ H]|]. intros H. split; [discriminate|exact H].
Qed.
