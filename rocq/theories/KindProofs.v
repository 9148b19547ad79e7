(** Proofs about the geometric parts of the motion metrics. *)
From Coq Require Import Sorting.Sorted Qabs Lqa.
From Verif Require Import Base ResultLib ListLib MonadLib CutoffModel CutoffProofs MotionModel MotionSpec MotionProofs MotionSubmissionModel KindSpec.
Open Scope Z_scope.
Ltac dbind H x E := apply bind_inv in H; destruct H as (x & E & H).

Lemma at_inv {A} (l : list A) i a : at_ l i = Ok a -> 0 <= i /\ nth_error l (Z.to_nat i) = Some a.
Proof.
  unfold at_. destruct (i <? 0) eqn:E; [discriminate|]. apply Z.ltb_ge in E. destruct (nth_error l (Z.to_nat i)); [|discriminate].
  intros H. injection H as <-. auto.
Qed.

(** * Kinds *)
Lemma last_valid_spec l : forall cur,
  match last_valid l cur with
  | Some e => (exists i, nth_error l i = Some e /\ st_valid e = true /\ forall j q, (i < j)%nat -> nth_error l j = Some q -> st_valid q = false) \/
              (cur = Some e /\ forall j q, nth_error l j = Some q -> st_valid q = false)
  | None => cur = None /\ forall j q, nth_error l j = Some q -> st_valid q = false
  end.
Proof.
  induction l as [|s l IH]; intros cur; cbn [last_valid].
  - destruct cur as [e|]; [right|]; (split; [reflexivity|]; intros [|j] q; discriminate).
  - specialize (IH (if st_valid s then Some s else cur)). destruct (last_valid l (if st_valid s then Some s else cur)) as [e|].
    + destruct IH as [(i & H1 & H2 & H3)|(H1 & H2)].
      * left. exists (S i). split; [exact H1|]. split; [exact H2|]. intros [|j] q Hj; [lia|]. apply H3. lia.
      * destruct (st_valid s) eqn:V.
        -- injection H1 as <-. left. exists O. split; [reflexivity|]. split; [exact V|]. intros [|j] q Hj; [lia|]. apply H2.
        -- right. split; [exact H1|]. intros [|j] q Hq; [cbn in Hq; congruence|]. exact (H2 j q Hq).
    + destruct IH as [H1 H2]. destruct (st_valid s) eqn:V; [discriminate|]. split; [exact H1|]. intros [|j] q Hq; [cbn in Hq; congruence|]. exact (H2 j q Hq).
Qed.
Lemma skip_nth {A} n (l : list A) i : nth_error (skipn n l) i = nth_error l (n + i)%nat.
Proof. revert l. induction n as [|n IH]; intros [|a l]; cbn [skipn Nat.add nth_error]; auto. now destruct i. Qed.
Lemma last_ends tr p : 0 <= p -> match last_valid (skipn (Z.to_nat (p + 1)) (tr_states tr)) None with
  | Some e => ends tr p e
  | None => forall j q, p < Z.of_nat j -> nth_error (tr_states tr) j = Some q -> st_valid q = false
  end.
Proof.
  intros Hp. pose proof (last_valid_spec (skipn (Z.to_nat (p + 1)) (tr_states tr)) None) as H.
  destruct (last_valid _ None) as [e|].
  - destruct H as [(i & H1 & H2 & H3)|(H1 & _)]; [|discriminate]. rewrite skip_nth in H1. exists (Z.to_nat (p + 1) + i)%nat.
    split; [lia|]. split; [exact H1|]. split; [exact H2|]. intros j q Hj Hq. apply (H3 (j - Z.to_nat (p + 1))%nat); [lia|]. rewrite skip_nth.
    now replace (Z.to_nat (p + 1) + (j - Z.to_nat (p + 1)))%nat with j by lia.
  - destruct H as [_ H]. intros j q Hj Hq. apply (H (j - Z.to_nat (p + 1))%nat). rewrite skip_nth.
    now replace (Z.to_nat (p + 1) + (j - Z.to_nat (p + 1)))%nat with j by lia.
Qed.
Lemma ends_unique tr p e e' : ends tr p e -> ends tr p e' -> e = e'.
Proof.
  intros (i & _ & H1 & H2 & H3) (i' & _ & H1' & H2' & H3'). destruct (Nat.lt_trichotomy i i') as [L|[L|L]].
  - specialize (H3 i' e' L H1'). congruence.
  - subst i'. congruence.
  - specialize (H3' i e L H1). congruence.
Qed.
Definition code_kind (g : geom) (s e : state) : Z :=
  let '(dx, dy) := seen g s e in
  if Qlt_bool (qmax2 (g_hypot g (st_vx s) (st_vy s)) (g_hypot g (st_vx e) (st_vy e))) 2 && Qlt_bool (g_hypot g (st_x e - st_x s)%Q (st_y e - st_y s)%Q) 3 then STATIONARY else
  if Qlt_bool (Qabs (g_norm g (st_heading e - st_heading s)%Q)) (g_pi6 g) then
    if Qlt_bool (Qabs dy) (5 # 2) then STRAIGHT else if Qlt_bool dy 0 then STRAIGHT_RIGHT else STRAIGHT_LEFT else
  if Qlt_bool dy 0 then if Qlt_bool dx 0 then RIGHT_U_TURN else RIGHT_TURN else
  if Qlt_bool dx 0 then LEFT_U_TURN else LEFT_TURN.
Lemma max_below a b (x : Q) : Qlt_bool (qmax2 a b) x = true <-> (a < x)%Q /\ (b < x)%Q.
Proof.
  rewrite qlt_iff. unfold qmax2. destruct (Qlt_bool a b) eqn:E; [apply qlt_iff in E|apply qlt_false in E]; (split; [intros H; split; lra|intros [H1 H2]; lra]).
Qed.
Lemma code_kind_ok g s e : kind g s e (code_kind g s e).
Proof.
  unfold code_kind. destruct (seen g s e) as [dx dy] eqn:Es.
  destruct (Qlt_bool (qmax2 _ _) 2 && Qlt_bool _ 3) eqn:E0.
  - apply andb_true_iff in E0 as [H1 H2]. apply max_below in H1 as [H1 H3]. apply qlt_iff in H2. apply Kind_stationary. repeat split; assumption.
  - assert (N : ~ stands g s e).
    { intros (H1 & H2 & H3). rewrite (proj2 (max_below _ _ _) (conj H1 H2)), (proj2 (qlt_iff _ _) H3) in E0. discriminate. }
    clear E0. destruct (Qlt_bool (Qabs _) (g_pi6 g)) eqn:E1.
    + apply qlt_iff in E1. destruct (Qlt_bool (Qabs dy) (5 # 2)) eqn:E2.
      * apply qlt_iff in E2. apply Kind_straight; [exact N|exact E1|]. rewrite Es. exact E2.
      * apply qlt_false in E2. revert E2. apply Qabs_case; intros D E2; destruct (Qlt_bool dy 0) eqn:E3; try apply qlt_iff in E3; try apply qlt_false in E3.
        -- lra.
        -- apply Kind_straight_left; [exact N|exact E1|]. rewrite Es. exact E2.
        -- apply Kind_straight_right; [exact N|exact E1|]. rewrite Es. cbn [snd]. lra.
        -- lra.
    + assert (K : ~ keeps_heading g s e) by (intros K; apply qlt_false in E1; unfold keeps_heading in K; lra).
      destruct (Qlt_bool dy 0) eqn:E2; destruct (Qlt_bool dx 0) eqn:E3;
        [apply qlt_iff in E2; apply qlt_iff in E3; apply Kind_right_u|apply qlt_iff in E2; apply qlt_false in E3; apply Kind_right
        |apply qlt_false in E2; apply qlt_iff in E3; apply Kind_left_u|apply qlt_false in E2; apply qlt_false in E3; apply Kind_left];
        try assumption; rewrite Es; assumption.
Qed.
Lemma kind_unique g s e k k' : kind g s e k -> kind g s e k' -> k = k'.
Proof.
  intros H H'. assert (A : forall x : Q, (5 # 2 <= x)%Q \/ (x <= - (5 # 2))%Q -> ~ (Qabs x < 5 # 2)%Q).
  { intros x Hx. apply Qabs_case; intros; lra. }
  destruct H as [|? ? L|? ? L|? ? L|? ? L M|? ? L M|? ? L M|? ? L M]; inversion H' as [|? ? L'|? ? L'|? ? L'|? ? L' M'|? ? L' M'|? ? L' M'|? ? L' M'];
    try reflexivity; try contradiction; try lra; exfalso;
    try (apply (A _ (or_introl L)); assumption); try (apply (A _ (or_intror L)); assumption);
    try (apply (A _ (or_introl L')); assumption); try (apply (A _ (or_intror L')); assumption).
Qed.
Lemma classify_value g p tr : 0 <= p -> classify_track g p tr =
  match last_valid (skipn (Z.to_nat (p + 1)) (tr_states tr)) None with
  | None => Ok None
  | Some e => do s <- at_ (tr_states tr) p; if st_valid s then Ok (Some (code_kind g s e)) else Ok None
  end.
Proof.
  intros Hp. unfold classify_track. destruct (last_valid _ None) as [e|]; [|reflexivity]. destruct (at_ (tr_states tr) p) as [s|]; [|reflexivity]. cbn [bind].
  destruct (st_valid s); [|reflexivity]. cbn [negb]. unfold code_kind, seen. cbv zeta. destruct (g_rotate _ _ _) as [dx dy].
  repeat match goal with |- context [if ?b then _ else _] => destruct b end; reflexivity.
Qed.
Lemma kind_exact g p tr k : 0 <= p ->
  (classify_track g p tr = Ok (Some k) <-> exists s e, starts tr p s /\ st_valid s = true /\ ends tr p e /\ kind g s e k).
Proof.
  intros Hp. rewrite classify_value by exact Hp. pose proof (last_ends tr p Hp) as L. split.
  - destruct (last_valid _ None) as [e|]; [|discriminate]. destruct (at_ (tr_states tr) p) as [s|] eqn:Es; [|discriminate]. cbn [bind].
    destruct (st_valid s) eqn:V; [|discriminate]. intros H. injection H as <-. exists s, e. apply at_inv in Es. split; [exact Es|]. split; [exact V|].
    split; [exact L|apply code_kind_ok].
  - intros (s & e & (_ & Hs) & V & He & Hk). destruct (last_valid _ None) as [e'|].
    + rewrite (ends_unique tr p e' e L He). rewrite (at_some _ p s Hp Hs). cbn [bind]. rewrite V. f_equal. f_equal.
      apply (kind_unique g s e); [apply code_kind_ok|exact Hk].
    + destruct He as (i & H1 & H2 & H3 & _). specialize (L i e H1 H2). congruence.
Qed.
Lemma kind_none g p tr : 0 <= p -> (classify_track g p tr = Ok None <->
  (forall j q, p < Z.of_nat j -> nth_error (tr_states tr) j = Some q -> st_valid q = false) \/ (exists s, starts tr p s /\ st_valid s = false)).
Proof.
  intros Hp. rewrite classify_value by exact Hp. pose proof (last_ends tr p Hp) as L. split.
  - destruct (last_valid _ None) as [e|]; [|intros _; left; exact L]. destruct (at_ (tr_states tr) p) as [s|] eqn:Es; [|discriminate]. cbn [bind].
    destruct (st_valid s) eqn:V; [discriminate|]. intros _. right. exists s. apply at_inv in Es. split; [exact Es|exact V].
  - intros H. destruct (last_valid _ None) as [e|]; [|reflexivity]. destruct H as [H|(s & (_ & Hs) & V)].
    + destruct L as (i & H1 & H2 & H3 & _). specialize (H i e H1 H2). congruence.
    + rewrite (at_some _ p s Hp Hs). cbn [bind]. now rewrite V.
Qed.

(** * The kind of a prediction *)
Lemma kinds_listed g p tr k : classify_track g p tr = Ok (Some k) -> In k importance.
Proof.
  unfold classify_track. destruct (last_valid _ None) as [e|]; [|discriminate]. destruct (at_ _ _) as [s|]; [|discriminate]. cbn [bind].
  destruct (negb (st_valid s)); [discriminate|]. destruct (g_rotate _ _ _) as [dx dy]. cbv zeta. unfold importance.
  repeat match goal with |- context [if ?b then _ else _] => destruct b end; intros H; injection H as <-; cbn; auto 12.
Qed.
Lemma priority_place k : In k importance -> nth_error importance (Z.to_nat (traj_priority k)) = Some k /\ 0 <= traj_priority k < 8.
Proof. intros [<-|[<-|[<-|[<-|[<-|[<-|[<-|[<-|[]]]]]]]]]; cbn; split; (reflexivity || lia). Qed.
Lemma priority_below a b : In a importance -> In b importance -> traj_priority a <= traj_priority b -> at_most_as_important a b.
Proof.
  intros Ha Hb H. destruct (priority_place a Ha) as [A1 A2]. destruct (priority_place b Hb) as [B1 B2].
  exists (Z.to_nat (traj_priority a)), (Z.to_nat (traj_priority b)). split; [lia|]. split; assumption.
Qed.
Lemma type_loop g c ids ts : forall kinds acc, answers (fun t => do tr <- get_track (tj_id t) ids; classify_track g (hist c) tr) ts kinds ->
  (forall k, In (Some k) kinds -> In k importance) -> In (fst acc) importance ->
  exists r, foldM (fun (acc : Z * bool) t => do tr <- get_track (tj_id t) ids; do ty <- classify_track g (hist c) tr;
       match ty with
       | None => Ok acc
       | Some ty => Ok (if traj_priority (fst acc) <? traj_priority ty then (ty, true) else (fst acc, true))
       end) ts acc = Ok r /\
    In (fst r) importance /\ traj_priority (fst acc) <= traj_priority (fst r) /\ (forall k, In (Some k) kinds -> traj_priority k <= traj_priority (fst r)) /\
    (fst r = fst acc \/ In (Some (fst r)) kinds) /\ (snd r = true <-> snd acc = true \/ exists k, In (Some k) kinds).
Proof.
  induction ts as [|t ts IH]; intros kinds acc H HI HA.
  - inversion H; subst. exists acc. cbn [foldM]. split; [reflexivity|]. split; [exact HA|]. split; [lia|]. split; [intros k []|]. split; [now left|].
    split; [now left|]. intros [E|(k & [])]; exact E.
  - inversion H as [|t' k0 ts' kinds' Ht Hts]; subst. cbn [foldM]. destruct (get_track (tj_id t) ids) as [tr|] eqn:Et; [|discriminate Ht]. cbn [bind] in Ht |- *. rewrite Ht. cbn [bind].
    destruct k0 as [k0|].
    + assert (H0 : In k0 importance) by (apply HI; now left).
      destruct (traj_priority (fst acc) <? traj_priority k0) eqn:E.
      * apply Z.ltb_lt in E. destruct (IH kinds' (k0, true) Hts) as (r & Hr & R1 & R2 & R3 & R4 & R5); [intros k Hk; apply HI; now right|exact H0|].
        cbn [fst snd] in *. exists r. split; [exact Hr|]. split; [exact R1|]. split; [lia|]. split; [intros k [Hk|Hk]; [injection Hk as <-; lia|now apply R3]|].
        split; [destruct R4 as [->|R4]; right; [now left|now right]|]. split; [intros _; right; exists k0; now left|]. intros _. apply R5. now left.
      * apply Z.ltb_ge in E. destruct (IH kinds' (fst acc, true) Hts) as (r & Hr & R1 & R2 & R3 & R4 & R5); [intros k Hk; apply HI; now right|exact HA|].
        cbn [fst snd] in *. exists r. split; [exact Hr|]. split; [exact R1|]. split; [lia|]. split; [intros k [Hk|Hk]; [injection Hk as <-; lia|now apply R3]|].
        split; [destruct R4 as [->|R4]; [now left|right; now right]|]. split; [intros _; right; exists k0; now left|]. intros _. apply R5. now left.
    + destruct (IH kinds' acc Hts) as (r & Hr & R1 & R2 & R3 & R4 & R5); [intros k Hk; apply HI; now right|exact HA|].
      exists r. split; [exact Hr|]. split; [exact R1|]. split; [exact R2|]. split; [intros k [Hk|Hk]; [discriminate|now apply R3]|].
      split; [destruct R4 as [R4|R4]; [now left|right; now right]|]. rewrite R5. split; (intros [Hk|(k & Hk)]; [now left|right; exists k]).
      * now right. * destruct Hk as [Hk|Hk]; [discriminate|exact Hk].
Qed.
Lemma prediction_kind g c ids ts kinds : 0 <= hist c ->
  answers (fun t => do tr <- get_track (tj_id t) ids; classify_track g (hist c) tr) ts kinds ->
  exists r, prediction_type g c ids ts = Ok r /\
    match r with
    | None => forall k, In k kinds -> k = None
    | Some k => exists a, counted_as a k /\ In (Some a) kinds /\ forall b, In (Some b) kinds -> at_most_as_important b a
    end.
Proof.
  intros Hh H. assert (HI : forall k, In (Some k) kinds -> In k importance).
  { intros k Hk. clear -H Hk. induction H as [|t k0 ts kinds Ht H IH]; [destruct Hk|]. destruct Hk as [->|Hk]; [|now apply IH].
    dbind Ht tr Et. now apply kinds_listed in Ht. }
  destruct (type_loop g c ids ts kinds (STATIONARY, false) H HI) as (r & Hr & R1 & R2 & R3 & R4 & R5); [now left|].
  unfold prediction_type. rewrite Hr. cbn [bind]. destruct r as [ty found]. cbn [fst snd] in *. destruct found; cbn [negb].
  - assert (E : exists k, In (Some k) kinds) by (destruct (proj1 R5 eq_refl) as [C|C]; [discriminate|exact C]).
    eexists. split; [reflexivity|]. exists ty. split; [|split].
    + unfold counted_as, RIGHT_U_TURN, RIGHT_TURN. destruct (ty =? 6) eqn:E6; [left; apply Z.eqb_eq in E6; auto|right; apply Z.eqb_neq in E6; auto].
    + destruct R4 as [R4|R4]; [|exact R4]. destruct E as [k Hk]. specialize (R3 k Hk). subst ty. pose proof (HI k Hk) as Ik.
      destruct (priority_place k Ik) as [P1 P2]. change (traj_priority STATIONARY) with 0 in R3. assert (Z0 : traj_priority k = 0) by lia.
      rewrite Z0 in P1. cbn in P1. injection P1 as P1. unfold STATIONARY. now rewrite P1.
    + intros b Hb. apply priority_below; auto.
  - exists None. split; [reflexivity|]. intros [k|] Hk; [|reflexivity]. assert (false = true) by (apply R5; right; now exists k). discriminate.
Qed.

(** * Matches *)
Lemma scale_ok g c tr f : speed_scale g c tr = Ok f -> scaled_by g c tr f.
Proof.
  unfold speed_scale. destruct (_ <? _); [discriminate|]. destruct (Qle_bool (spd_hi c) (spd_lo c)) eqn:E; [discriminate|].
  intros H. dbind H s Es. apply at_inv in Es as [_ Es]. exists s. split; [exact Es|]. cbv zeta in *. set (v := g_hypot g (st_vx s) (st_vy s)) in *.
  assert (D : (spd_lo c < spd_hi c)%Q) by (apply qlt_iff; unfold Qlt_bool; now rewrite E).
  destruct (Qlt_bool v (spd_lo c)) eqn:E1; [apply qlt_iff in E1; injection H as <-; left; split; [exact E1|reflexivity]|]. apply qlt_false in E1.
  destruct (Qlt_bool (spd_hi c) v) eqn:E2; [apply qlt_iff in E2; injection H as <-; right; left; split; [exact E2|reflexivity]|]. apply qlt_false in E2.
  injection H as <-. right; right. split; [exact E1|]. split; [exact E2|]. field. lra.
Qed.
Lemma within_iff (d lim : Q) : Qlt_bool lim (Qabs d) = false <-> (- lim <= d <= lim)%Q.
Proof. rewrite qlt_false. apply Qabs_Qle_condition. Qed.
Definition outside (sc : step_cfg) (d : Q * Q) : bool := Qlt_bool (lat_thr sc) (Qabs (snd d)) || Qlt_bool (lon_thr sc) (Qabs (fst d)).
Lemma outside_iff sc d : outside sc d = false <-> (- lon_thr sc <= fst d <= lon_thr sc)%Q /\ (- lat_thr sc <= snd d <= lat_thr sc)%Q.
Proof. unfold outside. rewrite orb_false_iff, !within_iff. tauto. Qed.
Lemma loop_hits g c ids sc ts : 0 < psps c -> 0 <= tsps c -> forall ds, match_loop g c ids sc ts = Ok ds -> length ds = length ts ->
  Forall2 (fun t d => hits g c ids sc t (outside sc d = false)) ts ds.
Proof.
  intros Hp Ht. induction ts as [|t ts IH]; intros ds H L; cbn [match_loop] in H.
  - injection H as <-. constructor.
  - dbind H tr Etr. dbind H d Ed. destruct d as [[lon lat]|]; [|injection H as <-; discriminate].
    dbind H f Ef. destruct (Qeq_bool f 0); [discriminate|]. dbind H ds' Eds. injection H as <-. cbn [length] in L.
    constructor; [|apply IH; [exact Eds|lia]]. unfold displacement_vec in Ed. rewrite (track_step_ok c (m_step sc) Hp Ht) in Ed. cbn [bind] in Ed.
    dbind Ed s Es. apply at_inv in Es as [_ Es]. destruct (st_valid s) eqn:V; [|discriminate]. cbn [negb] in Ed.
    dbind Ed x Ex. apply at_inv in Ex as [_ Ex]. dbind Ed y Ey. apply at_inv in Ey as [_ Ey]. injection Ed as Ed.
    exists tr, s, x, y, f. split; [exact Etr|]. split; [exact Es|]. split; [exact V|]. split; [exact Ex|]. split; [exact Ey|]. split; [now apply scale_ok|].
    cbv zeta. rewrite Ed. cbn [fst snd]. apply (outside_iff sc ((lon / f)%Q, (lat / f)%Q)).
Qed.
Lemma match_value g c ids sc j b : 0 < psps c -> 0 <= tsps c -> is_match g c ids sc j = Ok (Some b) ->
  (b = true -> forall t, In t (jt_trajs j) -> hits g c ids sc t True) /\
  (b = false -> (exists t, In t (jt_trajs j) /\ hits g c ids sc t False) /\ forall t, In t (jt_trajs j) -> hits g c ids sc t True \/ hits g c ids sc t False).
Proof.
  intros Hp Ht H. unfold is_match in H. dbind H ds Eds. destruct (negb _) eqn:E; [discriminate|]. apply negb_false_iff, Z.eqb_eq in E.
  assert (L : length ds = length (jt_trajs j)) by lia. apply Ok_inj in H. injection H as H. pose proof (loop_hits g c ids sc _ Hp Ht ds Eds L) as G.
  fold (outside sc) in H. change (fun d => outside sc d) with (outside sc) in H.
  assert (T : forall t d, hits g c ids sc t (outside sc d = false) -> hits g c ids sc t (if outside sc d then False else True)).
  { intros t d (tr & s & x & y & f & H1 & H2 & H3 & H4 & H5 & H6 & H7). exists tr, s, x, y, f. do 6 (split; [assumption|]). cbv zeta in *. rewrite <- H7.
    destruct (outside sc d); split; try tauto; try discriminate; auto. }
  change (negb (existsb (outside sc) ds) = b) in H.
  split; intros Hb; subst b.
  - apply negb_true_iff in Hb. intros t Hin. clear -G Hb Hin T. induction G as [|t' d ts ds H1 G IH]; [destruct Hin|]. cbn [existsb] in Hb.
    apply orb_false_iff in Hb as [B1 B2]. destruct Hin as [->|Hin]; [|now apply IH]. specialize (T t d H1). now rewrite B1 in T.
  - apply negb_false_iff in Hb. split.
    + clear -G Hb T. induction G as [|t' d ts ds H1 G IH]; [discriminate|]. cbn [existsb] in Hb. specialize (T t' d H1) as T1. destruct (outside sc d) eqn:Eo.
      * exists t'. split; [now left|]. exact T1.
      * destruct (IH Hb) as (t & I1 & I2). exists t. split; [now right|exact I2].
    + intros t Hin. clear -G Hin T. induction G as [|t' d ts ds H1 G IH]; [destruct Hin|]. destruct Hin as [->|Hin]; [|now apply IH].
      specialize (T t d H1). destruct (outside sc d); [now right|now left].
Qed.
Lemma loop_short g c ids sc ts : 0 < psps c -> 0 <= tsps c -> forall ds, match_loop g c ids sc ts = Ok ds -> length ds <> length ts ->
  exists t tr s, In t ts /\ get_track (tj_id t) ids = Ok tr /\
    nth_error (tr_states tr) (Z.to_nat ((m_step sc + 1) * (tsps c / psps c) + hist c)) = Some s /\ st_valid s = false.
Proof.
  intros Hp Ht. induction ts as [|t ts IH]; intros ds H L; cbn [match_loop] in H.
  - injection H as <-. now destruct L.
  - dbind H tr Etr. dbind H d Ed. destruct d as [[lon lat]|].
    + dbind H f Ef. destruct (Qeq_bool f 0); [discriminate|]. dbind H ds' Eds. injection H as <-. cbn [length] in L.
      destruct (IH ds' Eds) as (t' & tr' & s' & I & R); [lia|]. exists t', tr', s'. split; [now right|exact R].
    + unfold displacement_vec in Ed. rewrite (track_step_ok c (m_step sc) Hp Ht) in Ed. cbn [bind] in Ed. dbind Ed s Es. apply at_inv in Es as [_ Es].
      exists t, tr, s. split; [now left|]. split; [exact Etr|]. split; [exact Es|]. destruct (st_valid s); [|reflexivity]. cbn [negb] in Ed.
      dbind Ed x Ex. dbind Ed y Ey. discriminate.
Qed.
Lemma match_none g c ids sc j : 0 < psps c -> 0 <= tsps c -> is_match g c ids sc j = Ok None ->
  exists t tr s, In t (jt_trajs j) /\ get_track (tj_id t) ids = Ok tr /\
    nth_error (tr_states tr) (Z.to_nat ((m_step sc + 1) * (tsps c / psps c) + hist c)) = Some s /\ st_valid s = false.
Proof.
  intros Hp Ht H. unfold is_match in H. dbind H ds Eds. destruct (negb _) eqn:E; [|discriminate]. apply negb_true_iff, Z.eqb_neq in E.
  apply (loop_short g c ids sc _ Hp Ht ds Eds). lia.
Qed.

(** * Boxes *)
Lemma position_inv t i q : position t i = Ok q -> 0 <= i /\ nth_error (tj_x t) (Z.to_nat i) = Some (fst q) /\ nth_error (tj_y t) (Z.to_nat i) = Some (snd q).
Proof. unfold position. intros H. dbind H x Ex. dbind H y Ey. injection H as <-. apply at_inv in Ex as [Hi Ex], Ey as [_ Ey]. auto. Qed.
Lemma box_value c t i tr center pts size : 0 < psps c -> 0 <= tsps c -> prediction_box c t i tr = Ok (Some (center, pts, size)) ->
  positions t [i] [center] /\
  (exists steps, StronglySorted (fun a b => b < a) steps /\ (forall k, In k steps <-> 0 <= k < Z.of_nat (length (tj_x t)) /\ -1 <= k - i <= 1) /\ positions t steps pts) /\
  exists s, nth_error (tr_states tr) (Z.to_nat ((i + 1) * (tsps c / psps c) + hist c)) = Some s /\ size = (st_len s, st_wid s).
Proof.
  intros Hp Ht H. unfold prediction_box in H. dbind H q Eqq. pose proof (position_inv t i q Eqq) as (Hi & Q1 & Q2). cbv zeta in H.
  destruct (_ <? 2) eqn:E2; [discriminate|]. apply Z.ltb_ge in E2.
  assert (Li : i < Z.of_nat (length (tj_x t))) by (assert (Z.to_nat i < length (tj_x t))%nat by (apply nth_error_Some; congruence); lia).
  dbind H pts' Ep. rewrite (track_step_ok c i Hp Ht) in H. cbn [bind] in H. dbind H s Es. apply at_inv in Es as [_ Es]. injection H as <- <- <-.
  split; [repeat constructor; assumption|]. split; [|exists s; auto].
  destruct (i =? 0) eqn:E0.
  - apply Z.eqb_eq in E0. subst i. dbind Ep a Ea. dbind Ep b Eb. injection Ep as <-. apply position_inv in Ea as (_ & A1 & A2), Eb as (_ & B1 & B2).
    exists [1; 0]. split; [repeat constructor; lia|]. split; [|repeat constructor; assumption].
    intros k. cbn [In]. split; [intros [<-|[<-|[]]]; lia|]. intros K. assert (k = 0 \/ k = 1) as [->| ->] by lia; auto.
  - apply Z.eqb_neq in E0. destruct (i =? _) eqn:E1.
    + apply Z.eqb_eq in E1. dbind Ep a Ea. dbind Ep b Eb. injection Ep as <-. apply position_inv in Ea as (_ & A1 & A2), Eb as (_ & B1 & B2).
      exists [i; i - 1]. split; [repeat constructor; lia|]. split; [|repeat constructor; assumption].
      intros k. cbn [In]. split; [intros [<-|[<-|[]]]; lia|]. intros K. assert (k = i \/ k = i - 1) as [->| ->] by lia; auto.
    + apply Z.eqb_neq in E1. dbind Ep a Ea. dbind Ep b Eb. dbind Ep d Ed. injection Ep as <-.
      apply position_inv in Ea as (_ & A1 & A2), Eb as (_ & B1 & B2), Ed as (_ & D1 & D2).
      exists [i + 1; i; i - 1]. split; [repeat constructor; lia|]. split; [|repeat constructor; assumption].
      intros k. cbn [In]. split; [intros [<-|[<-|[<-|[]]]]; lia|]. intros K. assert (k = i + 1 \/ k = i \/ k = i - 1) as [->|[->| ->]] by lia; auto.
Qed.

(** * The reported numbers of one prediction *)
Lemma mean_start a : (acc_mean (acc_acc acc0 a) == acc_mean a)%Q.
Proof.
  unfold acc_mean, acc_acc, acc0. cbn [a_num a_total]. rewrite Z.add_0_l. destruct (a_num a =? 0); [reflexivity|]. rewrite Qplus_0_l. reflexivity.
Qed.
Lemma acc_buckets l : map_acc [] l = Ok l.
Proof.
  unfold map_acc. destruct l as [|b l]; [reflexivity|]. rewrite repeat_length, Nat.eqb_refl. cbn [negb]. f_equal.
  generalize (b :: l). clear. induction l as [|a l IH]; cbn [length repeat combine map]; [reflexivity|]. rewrite IH. f_equal. unfold ps_acc, ps0. cbn [fst snd ps_samples ps_num app].
  now destruct a.
Qed.
Lemma reported g c p s m sc bs : pr_mms p = [m] -> is_empty_mmp m = false -> step_cfgs c = [sc] -> motion_metrics g c [(p, Some s)] = Ok bs ->
  exists b ids ade fde miss over hard soft, bs = [b] /\ build_idmap s = Ok ids /\ b_step b = m_step sc /\
    min_displacement g c ids (m_step sc) false m = Ok ade /\ (b_ade b == acc_mean ade)%Q /\
    min_displacement g c ids (m_step sc) true m = Ok fde /\ (b_fde b == acc_mean fde)%Q /\
    miss_rate g c ids sc m = Ok miss /\ (b_miss b == acc_mean miss)%Q /\
    overlap_rate g c ids s (m_step sc) m = Ok over /\ (b_overlap b == acc_mean over)%Q /\
    map_stats g c ids sc false m = Ok hard /\ (b_map b == map_metric hard)%Q /\
    map_stats g c ids sc true m = Ok soft /\ (b_soft b == map_metric soft)%Q.
Proof.
  intros Hm He Hs H. unfold motion_metrics, total_stats in H. cbn [foldM snd fst] in H. dbind H tot Et. dbind Et tot' Et'. dbind Et' st Est.
  injection Et as <-. apply Ok_inj in H. subst bs. unfold compute_stats in Est. dbind Est u1 E1. dbind Est u2 E2. dbind Est ids Ei. dbind Est u3 E3. dbind Est u4 E4.
  rewrite Hm in Est. cbn [all_metrics] in Est. rewrite He in Est. dbind Est r Er. injection Est as <-. unfold prediction_stats in Er.
  destruct m as [|j0 m']; [discriminate|]. set (m := j0 :: m') in *. dbind Er ty Ety. rewrite Hs in Er. cbn [foldM] in Er. dbind Er r' Er'. injection Er as <-.
  dbind Er' st Est. cbn [upd] in Er'. dbind Er' v Ev. injection Er' as <-. unfold one_stats in Est.
  dbind Est ade Ea. dbind Est fde Ef. dbind Est miss Emi. dbind Est ov Eo. dbind Est mp Emp. dbind Est sf Esf. injection Est as <-.
  unfold ms_acc in Ev. cbn [ms0 ms_ade ms_fde ms_miss ms_overlap ms_map ms_soft] in Ev. rewrite !acc_buckets in Ev. cbn [bind] in Ev. apply Ok_inj in Ev. subst v.
  unfold bs_acc in Et'. cbn [foldM upd fst snd] in Et'. unfold ms_acc in Et'. cbn [ms0 ms_ade ms_fde ms_miss ms_overlap ms_map ms_soft] in Et'.
  rewrite !acc_buckets in Et'. cbn [bind] in Et'. apply Ok_inj in Et'. subst tot'. cbn [map].
  eexists. exists ids, ade, fde, miss, ov, mp, sf. split; [reflexivity|]. split; [exact Ei|]. unfold to_bundle.
  cbn [b_step b_ade b_fde b_miss b_overlap b_map b_soft fst snd ms_ade ms_fde ms_miss ms_overlap ms_map ms_soft]. split; [reflexivity|].
  split; [exact Ea|]. split; [now rewrite !mean_start|]. split; [exact Ef|]. split; [now rewrite !mean_start|]. split; [exact Emi|]. split; [now rewrite !mean_start|].
  split; [exact Eo|]. split; [now rewrite !mean_start|]. split; [exact Emp|]. split; [reflexivity|]. split; [exact Esf|reflexivity].
Qed.
(** * The configuration of the challenge *)
Lemma challenge_numbers : max_preds challenge_config = 6 /\ hist challenge_config = tsps challenge_config /\
  fut challenge_config = 8 * tsps challenge_config /\ tsps challenge_config = 10 /\ psps challenge_config = 2 /\
  Forall2 (fun (seconds : Z) sc => m_step sc + 1 = seconds * psps challenge_config) [3; 5; 8] (step_cfgs challenge_config) /\
  Forall2 (fun lat sc => (lat_thr sc == lat)%Q) [1; 18 # 10; 3]%Q (step_cfgs challenge_config) /\
  (forall sc, In sc (step_cfgs challenge_config) -> (lon_thr sc == 2 * lat_thr sc)%Q) /\
  (spd_lo challenge_config == 14 # 10)%Q /\ (spd_hi challenge_config == 11)%Q /\ (scl_lo challenge_config == 1 # 2)%Q /\ (scl_hi challenge_config == 1)%Q.
Proof.
  split; [reflexivity|]. split; [reflexivity|]. split; [reflexivity|]. split; [reflexivity|]. split; [reflexivity|].
  split; [repeat constructor|]. split; [repeat constructor|]. split; [intros sc [<-|[<-|[<-|[]]]]; reflexivity|]. repeat split.
Qed.
