(** Proofs about the motion metrics. *)
From Coq Require Import Permutation Sorting.Sorted Lqa String.
From Verif Require Import Base ResultLib ListLib CutoffModel CutoffProofs MotionModel MotionApSpec MotionApProofs MotionSpec.
Open Scope Z_scope.

Ltac dbind H x E :=
  match type of H with
  | bind ?r _ = Ok _ => destruct r as [x|] eqn:E; cbn [bind] in H; [|discriminate H]
  end.
(** ** First K *)
Lemma first_k_firstn {A} (l : list A) : forall n K, n < K -> first_k n K l = firstn (Z.to_nat (K - n)) l.
Proof.
  induction l as [|a l IH]; intros n K H; cbn [first_k]; [now rewrite firstn_nil|].
  destruct (Z.eqb_spec (n + 1) K) as [E|E].
  - replace (Z.to_nat (K - n)) with 1%nat by lia. reflexivity.
  - rewrite IH by lia. replace (Z.to_nat (K - n)) with (S (Z.to_nat (K - (n + 1)))) by lia. reflexivity.
Qed.
Lemma first_k_all {A} (l : list A) : forall n K, K <= n -> first_k n K l = l.
Proof.
  induction l as [|a l IH]; intros n K H; cbn [first_k]; [reflexivity|].
  destruct (Z.eqb_spec (n + 1) K) as [E|E]; [lia|]. now rewrite IH by lia.
Qed.
Lemma first_k_spec K m : first_k 0 K m = first_predictions K m.
Proof.
  unfold first_predictions. destruct (Z.ltb_spec 0 K).
  - rewrite first_k_firstn by lia. now rewrite Z.sub_0_r.
  - apply first_k_all. lia.
Qed.
(** ** minADE *)
Definition qmin_opt (best : option Q) (d : option Q) : option Q :=
  match d with
  | None => best
  | Some d => match best with None => Some d | Some b => if Qlt_bool d b then Some d else Some b end
  end.
Lemma fold_min ds : forall best,
  match fold_left qmin_opt ds best with
  | None => best = None /\ forall d, In d ds -> d = None
  | Some v => (best = Some v \/ In (Some v) ds) /\
              (forall b, best = Some b -> v <= b)%Q /\ (forall d, In (Some d) ds -> v <= d)%Q
  end.
Proof.
  induction ds as [|d ds IH]; intros best; cbn [fold_left].
  - destruct best as [b|]; [|now split]. split; [now left|]. split; [|intros ? []]. intros b' [= <-]. lra.
  - specialize (IH (qmin_opt best d)). destruct (fold_left qmin_opt ds (qmin_opt best d)) as [v|] eqn:E.
    + destruct IH as (H1 & H2 & H3).
      destruct d as [d|]; cbn [qmin_opt] in *.
      * destruct best as [b|].
        -- destruct (Qlt_bool d b) eqn:L; [apply qlt_iff in L|apply qlt_false in L].
           ++ specialize (H2 d eq_refl). repeat split.
              ** destruct H1 as [[= <-]|H1]; [right; now left|right; now right].
              ** intros b' [= <-]. lra.
              ** intros x [[= <-]|Hx]; [exact H2|auto].
           ++ specialize (H2 b eq_refl). repeat split.
              ** destruct H1 as [[= <-]|H1]; [now left|right; now right].
              ** intros b' [= <-]. lra.
              ** intros x [[= <-]|Hx]; [lra|auto].
        -- specialize (H2 d eq_refl). repeat split.
           ++ destruct H1 as [[= <-]|H1]; [right; now left|right; now right].
           ++ intros b' [=].
           ++ intros x [[= <-]|Hx]; [exact H2|auto].
      * repeat split; [destruct H1; [now left|right; now right]|exact H2|]. intros x [[=]|Hx]. auto.
    + destruct IH as [H1 H2]. destruct d as [d|]; cbn [qmin_opt] in H1.
      * destruct best as [b|]; [destruct (Qlt_bool d b)|]; discriminate.
      * split; [exact H1|]. intros x [<-|Hx]; auto.
Qed.
Lemma foldM_answers {A B S} (f : A -> result B) (h : S -> B -> S) l r : answers f l r -> forall s,
  foldM (fun s a => do b <- f a; Ok (h s b)) l s = Ok (fold_left h r s).
Proof.
  induction 1 as [|a b l r Ha _ IH]; intros s; cbn [foldM fold_left]; [reflexivity|]. rewrite Ha. cbn [bind]. apply IH.
Qed.
Lemma foldM_answers_inv {A B S} (f : A -> result B) (h : S -> B -> S) l : forall s s',
  foldM (fun s a => do b <- f a; Ok (h s b)) l s = Ok s' -> exists r, answers f l r /\ s' = fold_left h r s.
Proof.
  induction l as [|a l IH]; intros s s'; cbn [foldM].
  - intros [= <-]. exists []. split; [constructor|reflexivity].
  - destruct (f a) as [b|] eqn:Ea; cbn [bind]; [|discriminate]. intros H. apply IH in H. destruct H as (r & Hr & E).
    exists (b :: r). split; [now constructor|exact E].
Qed.
Lemma foldM_ext {A S} (f h : S -> A -> result S) l : (forall s a, f s a = h s a) -> forall s, foldM f l s = foldM h l s.
Proof. intros E. induction l as [|a l IH]; intros s; cbn [foldM]; [reflexivity|]. rewrite E. destruct (h s a); cbn [bind]; auto. Qed.
Lemma min_displacement_fold g c ids n final m : min_displacement g c ids n final m =
  do best <- foldM (fun best j => do d <- joint_displacement g c ids n final j; Ok (qmin_opt best d)) (first_predictions (max_preds c) m) None;
  Ok (match best with None => acc0 | Some b => acc_add acc0 b end).
Proof.
  unfold min_displacement. rewrite first_k_spec. f_equal. apply foldM_ext. intros s j.
  destruct (joint_displacement g c ids n final j) as [[d|]|]; reflexivity.
Qed.
Theorem min_displacement_spec g c ids n final m ds :
  answers (joint_displacement g c ids n final) (first_predictions (max_preds c) m) ds ->
  exists a, min_displacement g c ids n final m = Ok a /\
    ((nothing a /\ forall d, In d ds -> d = None) \/
     (exists v, one a v /\ In (Some v) ds /\ forall d, In (Some d) ds -> (v <= d)%Q)).
Proof.
  intros H. rewrite min_displacement_fold. rewrite (foldM_answers _ qmin_opt _ _ H). cbn [bind].
  eexists. split; [reflexivity|]. pose proof (fold_min ds None) as F.
  destruct (fold_left qmin_opt ds None) as [v|].
  - right. exists v. destruct F as ([[=]|F1] & _ & F2). split; [split; [reflexivity|cbn; ring]|]. split; [exact F1|exact F2].
  - left. destruct F as [_ F]. split; [split; reflexivity|exact F].
Qed.
Theorem min_displacement_defined g c ids n final m a : min_displacement g c ids n final m = Ok a ->
  exists ds, answers (joint_displacement g c ids n final) (first_predictions (max_preds c) m) ds.
Proof.
  rewrite min_displacement_fold. intros H. dbind H best E. apply foldM_answers_inv in E.
  destruct E as (r & Hr & _). now exists r.
Qed.
Definition with_max (c : mcfg) (K : Z) : mcfg :=
  {| tsps := tsps c; psps := psps c; hist := hist c; fut := fut c; spd_lo := spd_lo c; spd_hi := spd_hi c;
     scl_lo := scl_lo c; scl_hi := scl_hi c; step_cfgs := step_cfgs c; max_preds := K |}.
Lemma joint_loop_max g c K ids n final ts : forall q k, joint_loop g (with_max c K) ids n final ts q k = joint_loop g c ids n final ts q k.
Proof.
  induction ts as [|t ts IH]; intros q k; cbn [joint_loop]; [reflexivity|].
  destruct (get_track (tj_id t) ids) as [tr|]; cbn [bind]; [|reflexivity].
  change (displacement_at g (with_max c K) t tr n) with (displacement_at g c t tr n).
  change (average_displacement g (with_max c K) t tr n) with (average_displacement g c t tr n).
  destruct (if final then displacement_at g c t tr n else average_displacement g c t tr n) as [[d|]|]; cbn [bind]; [apply IH|reflexivity|reflexivity].
Qed.
Lemma joint_displacement_max g c K ids n final j : joint_displacement g (with_max c K) ids n final j = joint_displacement g c ids n final j.
Proof. unfold joint_displacement. now rewrite joint_loop_max. Qed.
Lemma answers_ext {A B} (f h : A -> result B) l r : (forall a, f a = h a) -> answers f l r -> answers h l r.
Proof. intros E. induction 1; constructor; [rewrite <- E; assumption|assumption]. Qed.
Lemma in_firstn {A} (l : list A) k a : In a (firstn k l) -> In a l.
Proof. intros H. rewrite <- (firstn_skipn k l). apply in_or_app. now left. Qed.
Lemma answers_prefix {A B} (f : A -> result B) l r k : answers f l r -> answers f (firstn k l) (firstn k r).
Proof. apply forall2_firstn. Qed.
Lemma firstn_firstn_le {A} (l : list A) i j : (i <= j)%nat -> firstn i (firstn j l) = firstn i l.
Proof. intros H. rewrite firstn_firstn. f_equal. lia. Qed.
Lemma answers_unique {A B} (f : A -> result B) l r r' : answers f l r -> answers f l r' -> r = r'.
Proof.
  intros H. revert r'. induction H as [|a b l r Ha _ IH]; intros r' H'; inversion H'; subst; [reflexivity|].
  f_equal; [congruence|auto].
Qed.
Theorem min_displacement_mono g c ids n final m K K' a a' : 0 < K <= K' ->
  min_displacement g (with_max c K) ids n final m = Ok a -> min_displacement g (with_max c K') ids n final m = Ok a' ->
  a_num a <= a_num a' /\ (a_num a = 1 -> (a_total a' <= a_total a)%Q).
Proof.
  intros HK H H'.
  destruct (min_displacement_defined _ _ _ _ _ _ _ H) as [ds D]. destruct (min_displacement_defined _ _ _ _ _ _ _ H') as [ds' D'].
  assert (P : ds = firstn (Z.to_nat K) ds').
  { apply (answers_ext _ (joint_displacement g c ids n final)) in D; [|apply joint_displacement_max].
    apply (answers_ext _ (joint_displacement g c ids n final)) in D'; [|apply joint_displacement_max].
    apply (answers_prefix _ _ _ (Z.to_nat K)) in D'. unfold first_predictions in D, D'. cbn [max_preds with_max] in D, D'.
    replace (0 <? K) with true in D by (symmetry; lia). replace (0 <? K') with true in D' by (symmetry; lia).
    rewrite firstn_firstn_le in D' by lia. exact (answers_unique _ _ _ _ D D'). }
  destruct (min_displacement_spec _ _ _ _ _ _ _ D) as (b & Eb & S). destruct (min_displacement_spec _ _ _ _ _ _ _ D') as (b' & Eb' & S').
  rewrite H in Eb. rewrite H' in Eb'. apply Ok_inj in Eb, Eb'. subst b b'.
  assert (I : forall d, In d ds -> In d ds') by (intros d Hd; rewrite P in Hd; eapply in_firstn; exact Hd).
  destruct S as [[[N _] A]|(v & [N T] & V & L)], S' as [[[N' _] A']|(v' & [N' T'] & V' & L')].
  - split; [lia|lia].
  - split; [lia|lia].
  - specialize (A' _ (I _ V)). discriminate.
  - split; [lia|]. intros _. rewrite T, T'. apply L'. apply I. exact V.
Qed.
(** ** ADE *)
Lemma upto_S n : 0 <= n -> upto n = map Z.of_nat (seq 0 (S (Z.to_nat n))).
Proof. intros H. unfold upto. f_equal. f_equal. lia. Qed.
Lemma at_nat {A} (l : list A) i : at_ l (Z.of_nat i) = match nth_error l i with Some a => Ok a | None => Err IndexError end.
Proof. unfold at_. destruct (Z.ltb_spec (Z.of_nat i) 0); [lia|]. now rewrite Nat2Z.id. Qed.
Lemma at_some {A} (l : list A) i a : 0 <= i -> nth_error l (Z.to_nat i) = Some a -> at_ l i = Ok a.
Proof. intros H E. unfold at_. destruct (Z.ltb_spec i 0); [lia|]. now rewrite E. Qed.
Lemma track_step_ok c i : 0 < psps c -> 0 <= tsps c -> track_step c i = Ok ((i + 1) * (tsps c / psps c) + hist c).
Proof.
  intros H H'. unfold track_step, cdiv. destruct (Z.eqb_spec (psps c) 0); [lia|]. cbn [bind].
  now rewrite Z.quot_div_nonneg by lia.
Qed.
Lemma displacement_at_ok g c t tr i x y s : 0 < psps c -> 0 <= tsps c -> 0 <= hist c -> 
  nth_error (tj_x t) i = Some x -> nth_error (tj_y t) i = Some y ->
  nth_error (tr_states tr) (Z.to_nat ((Z.of_nat i + 1) * (tsps c / psps c) + hist c)) = Some s ->
  displacement_at g c t tr (Z.of_nat i) = Ok (if st_valid s then Some (g_hypot g (x - st_x s)%Q (y - st_y s)%Q) else None).
Proof.
  intros H1 H2 H3 Ex Ey Es. unfold displacement_at. rewrite track_step_ok by assumption. cbn [bind].
  rewrite (at_some _ _ s); [|pose proof (Z.div_pos (tsps c) (psps c)); nia|exact Es]. cbn [bind].
  destruct (st_valid s); cbn [negb]; [|reflexivity]. rewrite !at_nat, Ex, Ey. reflexivity.
Qed.
Lemma fold_errors g steps : forall a k,
  let r := fold_left (fun (acc : Q * Z) (d : option Q) => match d with Some d => ((fst acc + d)%Q, snd acc + 1) | None => acc end)
    (map (fun '(x, y, s) => if st_valid s then Some (g_hypot g (x - st_x s)%Q (y - st_y s)%Q) else None) steps) (a, k) in
  (fst r == a + sum_list (errors g steps))%Q /\ snd r = k + Z.of_nat (length (errors g steps)).
Proof.
  induction steps as [|[[x y] s] steps IH]; intros a k; cbn [map fold_left].
  - cbn. split; [ring|lia].
  - unfold errors in *. cbn [filter]. destruct (st_valid s).
    + cbn [fst snd]. specialize (IH (a + g_hypot g (x - st_x s) (y - st_y s))%Q (k + 1)). cbv zeta in *.
      destruct IH as [E1 E2]. cbn [map sum_list fold_right length]. split; [rewrite E1; unfold sum_list; ring|rewrite E2; lia].
    + apply IH.
Qed.
Theorem average_displacement_mean g c t tr n steps : 0 < psps c -> 0 <= tsps c -> 0 <= hist c -> 0 <= n -> paired c t tr n steps ->
  exists r, average_displacement g c t tr n = Ok r /\
    match r with None => errors g steps = [] | Some v => errors g steps <> [] /\ (v == mean (errors g steps))%Q end.
Proof.
  intros H1 H2 H3 H4 [HL HP]. unfold average_displacement.
  rewrite (foldM_ext _ (fun (acc : Q * Z) i => do d <- displacement_at g c t tr i;
      Ok (match d with Some d => ((fst acc + d)%Q, snd acc + 1) | None => acc end))) by (intros s a; destruct (displacement_at g c t tr a) as [[|]|]; reflexivity).
  rewrite (foldM_answers _ (fun (acc : Q * Z) (d : option Q) => match d with Some d => ((fst acc + d)%Q, snd acc + 1) | None => acc end) _
     (map (fun '(x, y, s) => if st_valid s then Some (g_hypot g (x - st_x s)%Q (y - st_y s)%Q) else None) steps)).
  2:{ rewrite upto_S by lia. unfold answers.
      assert (G : forall k st, (forall i, (i < length st)%nat -> exists x y s, nth_error st i = Some (x, y, s) /\
          displacement_at g c t tr (Z.of_nat (k + i)) = Ok (if st_valid s then Some (g_hypot g (x - st_x s)%Q (y - st_y s)%Q) else None)) ->
          Forall2 (fun a b => displacement_at g c t tr a = Ok b) (map Z.of_nat (seq k (length st)))
            (map (fun '(x, y, s) => if st_valid s then Some (g_hypot g (x - st_x s)%Q (y - st_y s)%Q) else None) st)).
      { intros k st. revert k. induction st as [|[[x y] s] st IH]; intros k H; cbn [length seq map]; constructor.
        - destruct (H O ltac:(cbn; lia)) as (x' & y' & s' & E & D). cbn in E. injection E as <- <- <-. now rewrite Nat.add_0_r in D.
        - apply IH. intros i Hi. destruct (H (S i) ltac:(cbn; lia)) as (x' & y' & s' & E & D). exists x', y', s'. split; [exact E|].
          now rewrite Nat.add_succ_comm. }
      replace (S (Z.to_nat n)) with (length steps) by lia. apply G. intros i Hi. destruct (HP i ltac:(lia)) as (x & y & s & E & Ex & Ey & Es).
      exists x, y, s. split; [exact E|]. now apply displacement_at_ok. }
  cbn [bind]. pose proof (fold_errors g steps 0%Q 0) as F. cbv zeta in F.
  destruct (fold_left _ _ (0%Q, 0)) as [e k]. cbn [fst snd] in F. destruct F as [F1 F2].
  destruct (Z.eqb_spec k 0) as [E|E].
  - eexists. split; [reflexivity|]. destruct (errors g steps); [reflexivity|cbn [length] in F2; lia].
  - eexists. split; [reflexivity|]. split; [intros C; rewrite C in F2; cbn in F2; lia|].
    unfold mean. rewrite F1, F2. rewrite Qplus_0_l. reflexivity.
Qed.
(** Displacement of one trajectory of a joint prediction. *)
Definition traj_displacement (g : geom) (c : mcfg) (ids : idmap) (n : Z) (final : bool) (t : traj) : result (option Q) :=
  do tr <- get_track (tj_id t) ids;
  if final then displacement_at g c t tr n else average_displacement g c t tr n.
Lemma joint_loop_all g c ids n final ts : forall vs q k,
  answers (traj_displacement g c ids n final) ts (map Some vs) ->
  exists q', joint_loop g c ids n final ts q k = Ok (q', k + Z.of_nat (length vs)) /\ (q' == q + sum_list vs)%Q.
Proof.
  induction ts as [|t ts IH]; intros vs q k H; inversion H as [|? b ? r Ha Hr E1 E2]; subst.
  - destruct vs; [|discriminate]. exists q. cbn. split; [f_equal; f_equal; lia|ring].
  - destruct vs as [|v vs]; [discriminate|]. injection E2 as -> ->. cbn [joint_loop]. unfold traj_displacement in Ha.
    destruct (get_track (tj_id t) ids) as [tr|]; cbn [bind] in *; [|discriminate]. rewrite Ha. cbn [bind].
    destruct (IH vs (q + v)%Q (k + 1) Hr) as (q' & E & Eq). exists q'. split; [rewrite E; f_equal; f_equal; cbn [length]; lia|].
    rewrite Eq. cbn [sum_list fold_right]. unfold sum_list. ring.
Qed.
Lemma joint_loop_none g c ids n final ts : forall ds q k, answers (traj_displacement g c ids n final) ts ds -> In None ds ->
  exists q' k', joint_loop g c ids n final ts q k = Ok (q', k') /\ k <= k' < k + Z.of_nat (length ts).
Proof.
  induction ts as [|t ts IH]; intros ds q k H Hn; inversion H as [|? b ? r Ha Hr E1 E2]; subst; [destruct Hn|].
  cbn [joint_loop]. unfold traj_displacement in Ha.
  destruct (get_track (tj_id t) ids) as [tr|]; cbn [bind] in *; [|discriminate]. rewrite Ha. cbn [bind].
  destruct b as [d|].
  - destruct Hn as [[=]|Hn]. destruct (IH r (q + d)%Q (k + 1) Hr Hn) as (q' & k' & E & Hk). exists q', k'.
    split; [exact E|cbn [length]; lia].
  - exists q, k. cbn [length]. split; [reflexivity|lia].
Qed.
Theorem joint_displacement_spec g c ids n final j ds :
  answers (traj_displacement g c ids n final) (jt_trajs j) ds ->
  exists r, joint_displacement g c ids n final j = Ok r /\
    match r with
    | None => ds = [] \/ In None ds
    | Some v => exists vs, ds = map Some vs /\ vs <> [] /\ (v == mean vs)%Q
    end.
Proof.
  intros H. unfold joint_displacement. pose proof (forall2_length _ _ _ H) as HL.
  assert (D : (exists vs, ds = map Some vs) \/ In None ds).
  { clear. induction ds as [|[d|] ds IH]; [left; now exists []| |right; now left].
    destruct IH as [[vs ->]|IH]; [left; now exists (d :: vs)|right; now right]. }
  destruct D as [[vs ->]|D].
  - destruct (joint_loop_all _ _ _ _ _ _ vs 0%Q 0 H) as (q & E & Eq). rewrite E. cbn [bind].
    rewrite map_length in HL. rewrite HL. destruct (Z.eqb_spec (0 + Z.of_nat (length vs)) (Z.of_nat (length vs))); [|lia]. cbn [negb].
    destruct (Z.eqb_spec (0 + Z.of_nat (length vs)) 0).
    + eexists. split; [reflexivity|]. left. destruct vs; [reflexivity|cbn in *; lia].
    + eexists. split; [reflexivity|]. exists vs. split; [reflexivity|]. split; [intros ->; cbn in *; lia|].
      unfold mean. rewrite Eq, Qplus_0_l. now rewrite Z.add_0_l.
  - destruct (joint_loop_none _ _ _ _ _ _ _ 0%Q 0 H D) as (q & k & E & Hk). rewrite E. cbn [bind].
    destruct (Z.eqb_spec k (Z.of_nat (length (jt_trajs j)))); [lia|]. cbn [negb]. eexists. split; [reflexivity|]. now right.
Qed.

(** ** Miss rate *)
Lemma miss_loop_spec g c ids sc l : forall bs valid, answers (is_match g c ids sc) l bs ->
  exists a, miss_loop g c ids sc l valid = Ok a /\
   ((In (Some true) bs /\ one a 0) \/
    (~ In (Some true) bs /\ (valid = true \/ In (Some false) bs) /\ one a 1) \/
    (valid = false /\ (forall b, In b bs -> b = None) /\ nothing a)).
Proof.
  induction l as [|j l IH]; intros bs valid H; inversion H as [|? b ? r Ha Hr E1 E2]; subst; cbn [miss_loop].
  - eexists. split; [reflexivity|]. destruct valid.
    + right; left. split; [intros []|]. split; [now left|]. split; [reflexivity|cbn; ring].
    + right; right. split; [reflexivity|]. split; [intros ? []|]. split; reflexivity.
  - rewrite Ha. cbn [bind]. destruct b as [[|]|].
    + eexists. split; [reflexivity|]. left. split; [now left|]. split; [reflexivity|cbn; ring].
    + destruct (IH r true Hr) as (a & E & C). exists a. split; [exact E|].
      destruct C as [[I O]|[(I & J & O)|(I & _)]]; [left; split; [now right|exact O]| |discriminate].
      right; left. split; [intros [[=]|K]; auto|]. split; [right; now left|exact O].
    + destruct (IH r valid Hr) as (a & E & C). exists a. split; [exact E|].
      destruct C as [[I O]|[(I & J & O)|(I & J & O)]].
      * left. split; [now right|exact O].
      * right; left. split; [intros [[=]|K]; auto|]. split; [destruct J; [now left|right; now right]|exact O].
      * right; right. split; [exact I|]. split; [intros b [<-|K]; auto|exact O].
Qed.
Theorem miss_rate_spec g c ids sc m bs : answers (is_match g c ids sc) (first_predictions (max_preds c) m) bs ->
  exists a, miss_rate g c ids sc m = Ok a /\
   (one a 0 <-> In (Some true) bs) /\
   (one a 1 <-> ~ In (Some true) bs /\ In (Some false) bs) /\
   (nothing a <-> forall b, In b bs -> b = None).
Proof.
  intros H. unfold miss_rate. rewrite first_k_spec. destruct (miss_loop_spec _ _ _ _ _ _ false H) as (a & E & C).
  exists a. split; [exact E|]. unfold one, nothing in *.
  destruct C as [[I [N T]]|[(I & J & [N T])|(_ & I & [N T])]].
  - split; [now split|]. split; [split; [intros [_ K]; lra|intros [K _]; tauto]|].
    split; [intros [K _]; lia|]. intros K. specialize (K _ I). discriminate.
  - destruct J as [[=]|J]. split; [split; [intros [_ K]; lra|intros K; tauto]|]. split; [now split|].
    split; [intros [K _]; lia|]. intros K. specialize (K _ J). discriminate.
  - split; [split; [intros [K _]; lia|intros K; specialize (I _ K); discriminate]|].
    split; [split; [intros [K _]; lia|intros [_ K]; specialize (I _ K); discriminate]|]. now split.
Qed.
Lemma match_loop_max g c K ids sc ts : match_loop g (with_max c K) ids sc ts = match_loop g c ids sc ts.
Proof.
  induction ts as [|t ts IH]; cbn [match_loop]; [reflexivity|].
  destruct (get_track (tj_id t) ids) as [tr|]; cbn [bind]; [|reflexivity].
  change (displacement_vec g (with_max c K) t tr (m_step sc)) with (displacement_vec g c t tr (m_step sc)).
  change (speed_scale g (with_max c K) tr) with (speed_scale g c tr).
  destruct (displacement_vec g c t tr (m_step sc)) as [[[lon lat]|]|]; cbn [bind]; try reflexivity.
  destruct (speed_scale g c tr) as [sl|]; cbn [bind]; [|reflexivity]. now rewrite IH.
Qed.
Lemma is_match_max g c K ids sc j : is_match g (with_max c K) ids sc j = is_match g c ids sc j.
Proof. unfold is_match. now rewrite match_loop_max. Qed.
Theorem miss_rate_mono g c ids sc m K K' bs : 0 < K <= K' -> answers (is_match g c ids sc) (first_predictions K' m) bs ->
  exists a a', miss_rate g (with_max c K) ids sc m = Ok a /\ miss_rate g (with_max c K') ids sc m = Ok a' /\
    a_num a <= a_num a' /\ (a_num a = 1 -> (a_total a' <= a_total a)%Q).
Proof.
  intros HK H'.
  assert (H : answers (is_match g c ids sc) (first_predictions K m) (firstn (Z.to_nat K) bs)).
  { apply (answers_prefix _ _ _ (Z.to_nat K)) in H'. unfold first_predictions in *.
    replace (0 <? K) with true by (symmetry; lia). replace (0 <? K') with true in H' by (symmetry; lia).
    now rewrite firstn_firstn_le in H' by lia. }
  apply (answers_ext _ (is_match g (with_max c K) ids sc)) in H; [|intros; symmetry; apply is_match_max].
  apply (answers_ext _ (is_match g (with_max c K') ids sc)) in H'; [|intros; symmetry; apply is_match_max].
  destruct (miss_loop_spec _ _ _ _ _ _ false H) as (a & E & C). destruct (miss_loop_spec _ _ _ _ _ _ false H') as (a' & E' & C').
  exists a, a'. unfold miss_rate. rewrite !first_k_spec. cbn [max_preds with_max]. split; [exact E|]. split; [exact E'|].
  unfold one, nothing in *.
  destruct C as [[I [N T]]|[(I & J & [N T])|(_ & I & [N T])]].
  - apply in_firstn in I. destruct C' as [[I' [N' T']]|[(I' & _)|(_ & I' & _)]]; [split; [lia|]; intros _; lra|contradiction|].
    specialize (I' _ I). discriminate.
  - destruct J as [[=]|J]. apply in_firstn in J.
    destruct C' as [[I' [N' T']]|[(I' & _ & [N' T'])|(_ & I' & _)]]; [split; [lia|intros _; lra]|split; [lia|intros _; lra]|].
    specialize (I' _ J). discriminate.
  - destruct C' as [[_ [N' _]]|[(_ & _ & [N' _])|(_ & _ & [N' _])]]; split; lia.
Qed.

(** ** Samples: at most one true positive *)
Definition some_true (l : list (joint * option bool)) : bool := existsb (fun p => match snd p with Some true => true | _ => false end) l.
Definition some_measured (l : list (joint * option bool)) : bool := existsb (fun p => match snd p with Some _ => true | None => false end) l.
Lemma sample_loop_found soft l : forall fnd, found (map snd (fst (sample_loop soft l fnd))) = if fnd then 0 else if some_true l then 1 else 0.
Proof.
  induction l as [|[j [b|]] l IH]; intros fnd; cbn [sample_loop some_true existsb snd].
  - now destruct fnd.
  - fold (some_true l). specialize (IH (fnd || b)). destruct (sample_loop soft l (fnd || b)) as [rest tk]. cbn [fst] in IH.
    destruct soft, fnd, b; cbn [andb orb fst map snd] in *; rewrite ?found_cons, IH; destruct (some_true l); reflexivity.
  - fold (some_true l). rewrite IH. reflexivity.
Qed.
Lemma sample_loop_taken soft l : forall fnd, snd (sample_loop soft l fnd) = some_measured l.
Proof.
  induction l as [|[j [b|]] l IH]; intros fnd; cbn [sample_loop some_measured existsb snd].
  - reflexivity.
  - destruct (sample_loop soft l (fnd || b)) as [rest tk]. destruct soft; reflexivity.
  - fold (some_measured l). apply IH.
Qed.
Lemma sample_loop_nonempty soft l : fst (sample_loop soft l false) <> [] <-> some_measured l = true.
Proof.
  induction l as [|[j [b|]] l IH]; cbn [sample_loop some_measured existsb snd orb].
  - split; [intros H; now elim H|discriminate].
  - split; [reflexivity|]. intros _. destruct (sample_loop soft l b) as [rest tk]. destruct soft; cbn [fst]; [|discriminate].
    rewrite andb_false_r. discriminate.
  - exact IH.
Qed.
(** Tie order. *)
Definition nrm (a : Q * bool) : Q * bool := (Qred (fst a), snd a).
Definition jdesc (l : list (joint * option bool)) : Prop := StronglySorted (fun a b => (jt_conf (fst b) <= jt_conf (fst a))%Q) l.
Definition measured (l : list (joint * option bool)) := filter (fun p => match snd p with Some _ => true | None => false end) l.
Definition unmatched (l : list (joint * option bool)) := filter (fun p => match snd p with Some false => true | _ => false end) l.
Definition neg (p : joint * option bool) : Q * bool := (Qred (jt_conf (fst p)), false).
Lemma hard_found l : map nrm (fst (sample_loop false l true)) = map neg (measured l).
Proof.
  induction l as [|[j [b|]] l IH]; cbn [sample_loop measured filter snd]; [reflexivity| |exact IH].
  cbn [orb]. destruct (sample_loop false l true) as [rest tk]. cbn [fst map] in *. fold (measured l). now rewrite IH.
Qed.
Lemma soft_found l : map nrm (fst (sample_loop true l true)) = map neg (unmatched l).
Proof.
  induction l as [|[j [b|]] l IH]; cbn [sample_loop unmatched filter snd]; [reflexivity| |exact IH].
  cbn [orb]. destruct (sample_loop true l true) as [rest tk]. cbn [fst map] in *. fold (unmatched l).
  destruct b; cbn [andb fst map]; now rewrite IH.
Qed.
Definition is_best (l : list (joint * option bool)) (c : Q) : Prop :=
  (exists j, In (j, Some true) l /\ jt_conf j = c) /\ forall j, In (j, Some true) l -> (jt_conf j <= c)%Q.
Lemma hard_shape l : jdesc l ->
  (some_true l = false /\ map nrm (fst (sample_loop false l false)) = map neg (measured l)) \/
  (exists c rest, is_best l c /\ Permutation (map nrm (fst (sample_loop false l false))) ((Qred c, true) :: rest) /\
     Permutation ((Qred c, false) :: rest) (map neg (measured l))).
Proof.
  induction 1 as [|[j o] l S IH F]; [left; now split|].
  cbn [sample_loop measured filter snd some_true existsb]. destruct o as [[|]|].
  - right. exists (jt_conf j), (map nrm (fst (sample_loop false l true))). split; [|split].
    + split; [exists j; split; [now left|reflexivity]|]. intros j' [[= <-]|H]; [lra|].
      rewrite Forall_forall in F. exact (F _ H).
    + cbn [orb]. destruct (sample_loop false l true) as [rest tk]. cbn [fst map]. apply Permutation_refl.
    + cbn [map]. rewrite hard_found. apply Permutation_refl.
  - cbn [orb]. fold (some_true l). destruct (sample_loop false l false) as [rest tk]. cbn [fst map] in *.
    destruct IH as [[E1 E2]|(c & r & B & P1 & P2)].
    + left. split; [exact E1|]. fold (measured l). now rewrite E2.
    + right. exists c, (neg (j, Some false) :: r). split; [|split].
      * destruct B as [(j' & I & E) U]. split; [exists j'; split; [now right|exact E]|]. intros x [[=]|H]. auto.
      * cbn [map]. change (nrm (jt_conf j, false)) with (neg (j, Some false)). rewrite P1. apply perm_swap.
      * fold (measured l). rewrite <- P2. apply perm_swap.
  - fold (some_true l) (measured l). destruct IH as [IH|(c & r & B & P)]; [left; exact IH|]. right. exists c, r. split; [|exact P].
    destruct B as [(j' & I & E) U]. split; [exists j'; split; [now right|exact E]|]. intros x [[=]|H]. auto.
Qed.
Lemma soft_shape l : jdesc l ->
  (some_true l = false /\ map nrm (fst (sample_loop true l false)) = map neg (unmatched l)) \/
  (exists c, is_best l c /\ Permutation (map nrm (fst (sample_loop true l false))) ((Qred c, true) :: map neg (unmatched l))).
Proof.
  induction 1 as [|[j o] l S IH F]; [left; now split|].
  cbn [sample_loop unmatched filter snd some_true existsb]. destruct o as [[|]|].
  - right. exists (jt_conf j). split.
    + split; [exists j; split; [now left|reflexivity]|]. intros j' [[= <-]|H]; [lra|].
      rewrite Forall_forall in F. exact (F _ H).
    + cbn [orb andb]. fold (unmatched l). rewrite <- soft_found. destruct (sample_loop true l true) as [rest tk]. cbn [fst map]. apply Permutation_refl.
  - cbn [orb andb]. fold (some_true l). destruct (sample_loop true l false) as [rest tk]. cbn [fst map] in *.
    destruct IH as [[E1 E2]|(c & B & P1)].
    + left. split; [exact E1|]. fold (unmatched l). now rewrite E2.
    + right. exists c. split.
      * destruct B as [(j' & I & E) U]. split; [exists j'; split; [now right|exact E]|]. intros x [[=]|H]. auto.
      * fold (unmatched l). change (nrm (jt_conf j, false)) with (neg (j, Some false)). rewrite P1. apply perm_swap.
  - fold (some_true l) (unmatched l). destruct IH as [IH|(c & B & P)]; [left; exact IH|]. right. exists c. split; [|exact P].
    destruct B as [(j' & I & E) U]. split; [exists j'; split; [now right|exact E]|]. intros x [[=]|H]. auto.
Qed.
Lemma is_best_perm l l' c c' : Permutation l l' -> is_best l c -> is_best l' c' -> Qred c = Qred c'.
Proof.
  intros P [(j & I & E) U] [(j' & I' & E') U']. apply Qred_complete. subst c c'.
  apply (Permutation_in _ (Permutation_sym P)) in I'. specialize (U _ I').
  apply (Permutation_in _ P) in I. specialize (U' _ I). lra.
Qed.
Lemma perm_filter {A} (p : A -> bool) l l' : Permutation l l' -> Permutation (filter p l) (filter p l').
Proof.
  induction 1 as [|x l l' _ IH|x y l|l l' l'' _ IH1 _ IH2]; cbn [filter]; [constructor| | |].
  - destruct (p x); [now constructor|exact IH].
  - destruct (p x), (p y); try apply Permutation_refl. apply perm_swap.
  - now rewrite IH1.
Qed.
Lemma some_true_perm l l' : Permutation l l' -> some_true l = some_true l'.
Proof.
  intros P. apply eq_true_iff_eq. unfold some_true. rewrite !existsb_exists.
  split; intros (x & I & H); exists x; (split; [|exact H]); [apply (Permutation_in _ P I)|apply (Permutation_in _ (Permutation_sym P) I)].
Qed.
Lemma best_some_true l c : is_best l c -> some_true l = true.
Proof. intros [(j & I & _) _]. unfold some_true. apply existsb_exists. now exists (j, Some true). Qed.
Theorem sample_loop_ties soft l l' : Permutation l l' -> jdesc l -> jdesc l' ->
  same_samples (fst (sample_loop soft l false)) (fst (sample_loop soft l' false)).
Proof.
  intros P S S'. unfold same_samples. change (fun a : Q * bool => (Qred (fst a), snd a)) with nrm.
  pose proof (some_true_perm _ _ P) as ET. destruct soft.
  - assert (PU : Permutation (map neg (unmatched l)) (map neg (unmatched l'))) by (apply Permutation_map, perm_filter, P).
    destruct (soft_shape l S) as [[E1 E2]|(c & B & Q1)], (soft_shape l' S') as [[E1' E2']|(c' & B' & Q1')].
    + now rewrite E2, E2'.
    + apply best_some_true in B'. congruence.
    + apply best_some_true in B. congruence.
    + rewrite Q1, Q1', (is_best_perm l l' c c' P B B'). now constructor.
  - assert (PU : Permutation (map neg (measured l)) (map neg (measured l'))) by (apply Permutation_map, perm_filter, P).
    destruct (hard_shape l S) as [[E1 E2]|(c & r & B & Q1 & Q2)], (hard_shape l' S') as [[E1' E2']|(c' & r' & B' & Q1' & Q2')].
    + now rewrite E2, E2'.
    + apply best_some_true in B'. congruence.
    + apply best_some_true in B. congruence.
    + rewrite Q1, Q1'. pose proof (is_best_perm l l' c c' P B B') as EC. rewrite EC in Q2 |- *.
      constructor. rewrite <- PU in Q2'. rewrite <- Q2 in Q2'. symmetry. eapply Permutation_cons_inv. exact Q2'.
Qed.
Lemma insert_desc_perm j l : Permutation (insert_desc j l) (j :: l).
Proof.
  induction l as [|k l IH]; cbn [insert_desc]; [apply Permutation_refl|].
  destruct (Qlt_bool (jt_conf j) (jt_conf k)); [|apply Permutation_refl]. rewrite IH. apply perm_swap.
Qed.
Lemma sort_desc_perm l : Permutation l (sort_desc l).
Proof. induction l as [|j l IH]; cbn [sort_desc fold_right]; [constructor|]. rewrite insert_desc_perm. now constructor. Qed.
Definition cdesc (l : list joint) : Prop := StronglySorted (fun a b => (jt_conf b <= jt_conf a)%Q) l.
Lemma insert_desc_sorted j l : cdesc l -> cdesc (insert_desc j l).
Proof.
  unfold cdesc. induction 1 as [|b l Hs IH Hf]; cbn [insert_desc]; [repeat constructor|].
  destruct (Qlt_bool (jt_conf j) (jt_conf b)) eqn:E; [apply qlt_iff in E|apply qlt_false in E].
  - constructor; [exact IH|]. rewrite Forall_forall in *. intros x Hx.
    apply (Permutation_in _ (insert_desc_perm j l)) in Hx. destruct Hx as [<-|Hx]; [lra|now apply Hf].
  - constructor; [now constructor|]. constructor; [exact E|].
    rewrite Forall_forall in *. intros x Hx. specialize (Hf x Hx). lra.
Qed.
Lemma sort_desc_sorted l : cdesc (sort_desc l).
Proof. induction l as [|j l IH]; cbn [sort_desc fold_right]; [constructor|]. now apply insert_desc_sorted. Qed.
Lemma bucket_map_same s s' n : 0 < n -> same_samples s s' ->
  (bucket_map {| ps_samples := s; ps_num := n |} == bucket_map {| ps_samples := s'; ps_num := n |})%Q.
Proof.
  intros Hn H. unfold same_samples in H. change (fun a : Q * bool => (Qred (fst a), snd a)) with nrm in H.
  assert (G : forall s, (bucket_map {| ps_samples := s; ps_num := n |} == bucket_map {| ps_samples := map nrm s; ps_num := n |})%Q).
  { intros t. rewrite (bucket_map_value t n _ Hn (sort_samples_ranked t)).
    rewrite (bucket_map_value (map nrm t) n (map nrm (sort_samples t)) Hn).
    - now rewrite map_map.
    - destruct (sort_samples_ranked t) as [P S]. split; [now apply Permutation_map|].
      clear P. induction S as [|a l S IH F]; cbn [map]; [constructor|]. constructor; [exact IH|].
      rewrite Forall_forall in *. intros x Hx. apply in_map_iff in Hx. destruct Hx as (y & <- & Hy).
      specialize (F _ Hy). unfold nrm. cbn [fst snd]. rewrite !Qred_correct. exact F. }
  rewrite (G s), (G s'). apply bucket_map_perm; assumption.
Qed.
