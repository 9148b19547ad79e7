(** Proofs of some further theorems about C28, C34 and C41. *)
From Coq Require Import QArith Qround Qfield String Lqa Lia.
From Verif Require Import Base ResultLib MonadLib ComponentModel ComponentProofs MetametricModel MetametricSpec MetametricProofs ScenarioModel ScenarioSpec TightSpec.
Open Scope list_scope.

(** * Road samples *)
Lemma line_value l r a f : In f [px; py; pz] -> on_line (f l) (f r) a (f (interpolate_point l r a)).
Proof. intros [<-|[<-|[<-|[]]]]; unfold on_line, interpolate_point, vadd, vscale, vsub; cbn [px py pz]; ring. Qed.
Lemma spline_value p0 p1 p2 p3 a f : In f [px; py; pz] -> on_spline (f p0) (f p1) (f p2) (f p3) a (f (interpolate_cubic_spline p0 p1 p2 p3 a)).
Proof.
  intros H. exists ((f p2 - f p0) / 2)%Q, ((2 * f p0 - 5 * f p1 + 4 * f p2 - f p3) / 2)%Q, ((3 * f p1 - f p0 - 3 * f p2 + f p3) / 2)%Q.
  split; [reflexivity|]. split; [field|]. split; [field|].
  destruct H as [<-|[<-|[<-|[]]]]; unfold interpolate_cubic_spline, vadd, vscale, vsub; cbn [px py pz]; field.
Qed.
Lemma sample_value cfg pts i : (0 < source_polyline_spacing cfg)%Q -> exists left a,
  (inject_Z (Z.of_nat i) * spacing cfg == (inject_Z (Z.of_nat left) + a) * source_polyline_spacing cfg)%Q /\ (0 <= a < 1)%Q /\
  let p k := nth k pts (V3 0 0 0) in
  forall f, In f [px; py; pz] ->
    ((1 <= left)%nat /\ (left + 2 < List.length pts)%nat ->
       on_spline (f (p (left - 1)%nat)) (f (p left)) (f (p (left + 1)%nat)) (f (p (left + 2)%nat)) a (f (polyline_sample cfg pts i))) /\
    (~ ((1 <= left)%nat /\ (left + 2 < List.length pts)%nat) -> on_line (f (p left)) (f (p (left + 1)%nat)) a (f (polyline_sample cfg pts i))).
Proof.
  intros Hs. set (s := source_polyline_spacing cfg) in *. set (d := (inject_Z (Z.of_nat i) * spacing cfg)%Q).
  assert (Hsp : (0 < spacing cfg)%Q).
  { unfold spacing. destruct (Qle_bool (polyline_sample_spacing cfg) 0) eqn:E; [exact Hs|]. apply Qnot_le_lt. intros C. apply Qle_bool_iff in C. congruence. }
  assert (Hd : (0 <= d / s)%Q).
  { apply Qle_shift_div_l; [exact Hs|]. rewrite Qmult_0_l. apply Qmult_le_0_compat; [|lra]. change 0%Q with (inject_Z 0). rewrite <- Zle_Qle. lia. }
  pose proof (Qfloor_le (d / s)) as F1. pose proof (Qlt_floor (d / s)) as F2.
  assert (F0 : (0 <= Qfloor (d / s))%Z) by (rewrite <- (Qfloor_Z 0); apply Qfloor_resp_le; exact Hd).
  exists (Z.to_nat (Qfloor (d / s))), ((d - inject_Z (Z.of_nat (Z.to_nat (Qfloor (d / s)))) * s) / s)%Q.
  split; [field; lra|]. split.
  - rewrite Z2Nat.id by exact F0.
    assert (E : ((d - inject_Z (Qfloor (d / s)) * s) / s == d / s - inject_Z (Qfloor (d / s)))%Q) by (field; lra).
    rewrite E. rewrite inject_Z_plus in F2. change (inject_Z 1) with 1%Q in F2. lra.
  - cbv zeta. intros f Hf. unfold polyline_sample. fold s. fold d. cbv zeta. set (left := Z.to_nat (Qfloor (d / s))).
    destruct ((1 <=? left)%nat && (left + 2 <? List.length pts)%nat) eqn:E.
    + apply andb_true_iff in E as [E1 E2]. apply Nat.leb_le in E1. apply Nat.ltb_lt in E2. split; [intros _|intros C; destruct C; auto].
      now apply spline_value.
    + apply andb_false_iff in E. rewrite Nat.leb_gt, Nat.ltb_ge in E. split; [intros [C1 C2]; lia|]. intros _. now apply line_value.
Qed.

(** * Column names *)
Lemma plain_marked n r : plain_name n r = marked (n, r).
Proof. unfold plain_name, marked. cbn [fst snd]. destruct r; [reflexivity|]. induction n as [|a n IH]; [reflexivity|]. cbn. now rewrite <- IH. Qed.
Lemma join_concat l : join l = String.concat "." l.
Proof. induction l as [|a [|b l] IH]; [reflexivity|reflexivity|]. cbn [join String.concat] in *. now rewrite IH. Qed.
Lemma app_str a b c : ((a ++ b) ++ c = a ++ b ++ c)%string.
Proof. induction a as [|x a IH]; [reflexivity|]. cbn. now rewrite IH. Qed.
Lemma concat_prefix p a l : String.concat "." ((p ++ a)%string :: l) = (p ++ String.concat "." (a :: l))%string.
Proof. destruct l as [|b l]; [reflexivity|]. cbn [String.concat]. now rewrite app_str. Qed.
Lemma cols_exact t : forall path x, In x (schema_cols t path) <-> exists p, leads t p /\ x = String.concat "." (path ++ map marked p).
Proof.
  induction t as [|k fs IH] using ty_ind'; intros path x.
  - cbn [schema_cols In]. rewrite join_concat. split.
    + intros [<-|[]]. exists []. split; [constructor|]. cbn [map]. now rewrite app_nil_r.
    + intros (p & H & ->). inversion H; subst. cbn [map]. rewrite app_nil_r. now left.
  - cbn [schema_cols]. rewrite in_concat. split.
    + intros (l & Hl & Hx). apply in_map_iff in Hl as ([[n r] t] & <- & Hin). cbn [fst snd] in Hx. apply (IH n r t Hin) in Hx as (p & Hp & ->).
      exists ((n, r) :: p). split; [now apply (Leads_down k fs n r t)|]. rewrite <- app_assoc. cbn [map app]. now rewrite plain_marked.
    + intros (p & Hp & ->). inversion Hp as [|k' fs' n r t p' Hin Hp']; subst.
      eexists. split; [apply in_map_iff; exists (n, r, t); split; [reflexivity|exact Hin]|]. cbn [fst snd]. apply (IH n r t Hin). exists p'. split; [exact Hp'|].
      rewrite <- app_assoc. cbn [map app]. now rewrite plain_marked.
Qed.
Lemma columns_exact c x : In x (schema c) <-> exists n r t p, In (n, r, t) (cfields c) /\ leads t p /\
  x = ((match t with Node true _ => "" | _ => "[" ++ cname c ++ "]." end) ++ dotted ((n, r) :: p))%string.
Proof.
  unfold schema. rewrite in_concat.
  assert (E : forall n r t p, String.concat "." ([comp_name (cname c) n r (is_key t)] ++ map marked p) =
                ((match t with Node true _ => "" | _ => "[" ++ cname c ++ "]." end) ++ dotted ((n, r) :: p))%string).
  { intros n r t p. unfold comp_name, dotted. rewrite plain_marked. cbn [app map].
    destruct t as [|[|] fs]; cbn [is_key]; try reflexivity;
      (transitivity (String.concat "." ((("[" ++ cname c ++ "].") ++ marked (n, r))%string :: map marked p)); [|apply concat_prefix]);
      do 2 f_equal; cbn [append]; f_equal; now rewrite app_str. }
  split.
  - intros (l & Hl & Hx). apply in_map_iff in Hl as ([[n r] t] & <- & Hin). cbn [fst snd] in Hx. apply cols_exact in Hx as (p & Hp & ->).
    exists n, r, t, p. split; [exact Hin|]. split; [exact Hp|]. apply E.
  - intros (n & r & t & p & Hin & Hp & ->). eexists. split; [apply in_map_iff; exists (n, r, t); split; [reflexivity|exact Hin]|]. cbn [fst snd].
    apply cols_exact. exists p. split; [exact Hp|]. symmetry. apply E.
Qed.

(** * Likelihoods *)
Lemma vehicle_rows valid : forall cars, length (vehicle_validity valid cars) = Nat.min (length valid) (length cars) /\
  forall o row (car : bool), nth_error valid o = Some row -> nth_error cars o = Some car ->
    nth_error (vehicle_validity valid cars) o = Some (if car then row else map (fun _ => false) row).
Proof.
  unfold vehicle_validity. induction valid as [|v valid IH]; intros cars; [split; [reflexivity|]; intros [|o]; discriminate|].
  destruct cars as [|c cars]; [split; [reflexivity|]; intros [|o] row car _; discriminate|]. cbn [combine map length Nat.min]. destruct (IH cars) as [L H].
  split; [now rewrite L|]. intros [|o] row car H1 H2; [|now apply H]. cbn in H1, H2. injection H1 as <-. injection H2 as <-. cbn [nth_error fst snd]. f_equal.
  destruct c; [|apply map_ext; intros b; apply andb_false_r]. rewrite <- (map_id v) at 2. apply map_ext. intros b. apply andb_true_r.
Qed.
Lemma all_selected {A} (l r : list A) : selected l (map (fun _ => true) l) r -> r = l.
Proof. revert r. induction l as [|a l IH]; intros r H; inversion H; subst; [reflexivity|]. f_equal. auto. Qed.
Lemma mean_as_average l : reduce_average_with_validity l (map (fun _ => true) l) = Ok (mean l).
Proof.
  unfold reduce_average_with_validity, mean. rewrite map_length, Nat.eqb_refl. cbn [negb]. f_equal. f_equal.
  - f_equal. induction l as [|a l IH]; [reflexivity|]. cbn [map combine fst snd]. now rewrite IH.
  - unfold qlen. f_equal. f_equal. induction l as [|a l IH]; [reflexivity|]. cbn [map filter length]. now rewrite IH.
Qed.
Lemma average_counted exp l v a : reduce_average_with_validity l v = Ok a -> exists r, selected l v r /\ (nexp exp a = None <-> r = [] \/ In None r) /\
  (forall qs, Forall2 is_number r qs -> r <> [] -> exists x, nexp exp a = Some (exp x) /\ is_mean qs x).
Proof.
  intros H. destruct (reduce_average_spec l v) as [A B]. destruct (Nat.eq_dec (length l) (length v)) as [L|L]; [|rewrite (A L) in H; discriminate].
  destruct (B L) as (r & a' & S1 & E & N & M). rewrite H in E. injection E as <-. exists r. split; [exact S1|]. split.
  - rewrite <- N. unfold nexp. destruct a; split; congruence.
  - intros qs Hq Hr. destruct (M qs Hq Hr) as (x & -> & Hx). exists x. now split.
Qed.
Lemma likelihood_value exp b m v : feature_likelihood exp b m = Ok v -> exists r, counted b m r /\ (v = None <-> r = [] \/ In None r) /\
  (forall qs, Forall2 is_number r qs -> r <> [] -> exists x, v = Some (exp x) /\ is_mean qs x).
Proof.
  unfold feature_likelihood. destruct (mask_of b m) as [w|] eqn:Em.
  - intros H. apply bind_inv in H as (a & Ha & H). apply Ok_inj in H. subst v. destruct (average_counted exp _ _ _ Ha) as (r & H1 & H2).
    exists r. split; [|exact H2]. destruct m; cbn [mask_of] in Em; try discriminate Em; injection Em as <-; cbn [counted]; try exact H1.
    eexists. split; [exact H1|]. apply vehicle_rows.
  - intros H. apply Ok_inj in H. subst v. destruct (average_counted exp _ _ _ (mean_as_average (log_likelihood b m))) as (r & H1 & H2).
    apply all_selected in H1. subst r. exists (log_likelihood b m). split; [|exact H2]. destruct m; try discriminate Em; reflexivity.
Qed.
Lemma nmin_fold l : forall x, match fold_left nmin l x with
  | Some v => In (Some v) (x :: l) /\ forall y, In y (x :: l) -> exists q, y = Some q /\ (v <= q)%Q
  | None => In None (x :: l)
  end.
Proof.
  induction l as [|y l IH]; intros x; cbn [fold_left].
  - destruct x as [v|]; [|now left]. split; [now left|]. intros y [<-|[]]. exists v. split; [reflexivity|lra].
  - specialize (IH (nmin x y)). destruct (fold_left nmin l (nmin x y)) as [v|].
    + destruct IH as [I1 I2]. destruct (I2 (nmin x y) (or_introl eq_refl)) as (q & Eq & Lq). destruct x as [a|]; [|discriminate]. destruct y as [b|]; [|discriminate].
      cbn [nmin] in *. injection Eq as Eq. destruct (Qle_bool a b) eqn:E; subst q.
      * apply Qle_bool_iff in E. split; [destruct I1 as [I1|I1]; [now left|right; now right]|]. intros z [<-|[<-|Hz]]; [exists a; auto|exists b; split; [reflexivity|lra]|].
        apply I2. now right.
      * assert (b <= a)%Q by (apply Qlt_le_weak, Qnot_le_lt; intros C; apply Qle_bool_iff in C; congruence).
        split; [right; destruct I1 as [I1|I1]; [now left|now right]|]. intros z [<-|[<-|Hz]]; [exists a; split; [reflexivity|lra]|exists b; auto|]. apply I2. now right.
    + destruct IH as [IH|IH]; [|right; now right]. destruct x as [a|]; [|now left]. destruct y as [b|]; [discriminate|right; now left].
Qed.
Lemma min_ade_value exp w id b r : compute_scenario_metrics exp w id b = Ok r -> exists v, field_of r MinAde = Some v /\
  (v = None <-> ade b = [] \/ In None (map mean (ade b))) /\
  (forall x, v = Some x -> In (Some x) (map mean (ade b)) /\ forall y, In y (map mean (ade b)) -> exists q, y = Some q /\ (x <= q)%Q).
Proof.
  intros H. destruct (scenario_message exp w id b r H) as (_ & _ & _ & _ & E & _). exists (minimum (map mean (ade b))). split; [exact E|].
  unfold minimum. destruct (map mean (ade b)) as [|x l] eqn:Em.
  - destruct (ade b); [|discriminate]. split; [split; [now left|reflexivity]|]. discriminate.
  - pose proof (nmin_fold l x) as F. destruct (fold_left nmin l x) as [v|].
    + split; [|intros z Hz; injection Hz as <-; exact F]. split; [discriminate|]. intros [C|C]; [rewrite C in Em; discriminate|].
      destruct F as [_ F]. destruct (F None C) as (q & Hq & _). discriminate.
    + split; [|discriminate]. split; [intros _; now right|reflexivity].
Qed.
