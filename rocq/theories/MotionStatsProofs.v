(** Proofs about the whole motion metrics pipeline: ranges, order independence, no crashes. *)
From Coq Require Import Permutation Sorting.Sorted Lqa String.
From Verif Require Import Base ResultLib ListLib CutoffModel CutoffProofs MotionModel MotionApSpec MotionApProofs MotionSpec MotionProofs.
Open Scope Z_scope.

(** ** Invariants *)
Definition good_ps (p : pstats) : Prop :=
  0 <= ps_num p /\ found (map snd (ps_samples p)) <= ps_num p /\ (ps_samples p <> [] -> 0 < ps_num p).
Definition good_map (l : list pstats) : Prop := length l = NUM_TYPES /\ Forall good_ps l.
Definition unit_acc (a : accum) : Prop := (0 <= a_num a) /\ (0 <= a_total a <= inject_Z (a_num a))%Q.
Definition pos_acc (a : accum) : Prop := (0 <= a_num a) /\ (0 <= a_total a)%Q.
Record good_ms (m : mstats) : Prop := {
  g_ade : pos_acc (ms_ade m); g_fde : pos_acc (ms_fde m); g_miss : unit_acc (ms_miss m); g_ov : unit_acc (ms_overlap m);
  g_map : good_map (ms_map m); g_soft : good_map (ms_soft m) }.
Lemma good_ps0 : good_ps ps0.
Proof. repeat split; cbn; try lia. intros H. now elim H. Qed.
Lemma good_ps_acc a b : good_ps a -> good_ps b -> good_ps (ps_acc a b).
Proof.
  intros (A1 & A2 & A3) (B1 & B2 & B3). unfold good_ps. cbn [ps_acc ps_samples ps_num]. rewrite map_app, found_app.
  repeat split; [lia|lia|]. intros H. destruct (ps_samples a) eqn:Ea; [|specialize (A3 ltac:(discriminate)); lia].
  specialize (B3 H). lia.
Qed.
Definition padd (a b : list pstats) : list pstats := map (fun p => ps_acc (fst p) (snd p)) (combine a b).
Definition ms_add (a b : mstats) : mstats :=
  {| ms_ade := acc_acc (ms_ade a) (ms_ade b); ms_fde := acc_acc (ms_fde a) (ms_fde b);
     ms_miss := acc_acc (ms_miss a) (ms_miss b); ms_overlap := acc_acc (ms_overlap a) (ms_overlap b);
     ms_map := padd (ms_map a) (ms_map b); ms_soft := padd (ms_soft a) (ms_soft b) |}.
Lemma map_acc_ok a b : length a = NUM_TYPES -> length b = NUM_TYPES -> map_acc a b = Ok (padd a b).
Proof.
  intros Ha Hb. unfold map_acc. destruct b as [|b0 b]; [discriminate|]. destruct a as [|a0 a]; [discriminate|].
  rewrite Ha, Hb. reflexivity.
Qed.
Lemma ps_acc_0 p : ps_acc ps0 p = p.
Proof. destruct p as [s n]. unfold ps_acc. cbn [ps_samples ps_num ps0 app]. now rewrite Z.add_0_l. Qed.
Lemma padd_0 b : padd (repeat ps0 (length b)) b = b.
Proof. unfold padd. induction b as [|p b IH]; cbn [length repeat combine map fst snd]; [reflexivity|]. now rewrite ps_acc_0, IH. Qed.
Lemma map_acc_0 b : length b = NUM_TYPES -> map_acc [] b = Ok b.
Proof.
  intros Hb. unfold map_acc. destruct b as [|b0 b]; [discriminate|]. rewrite repeat_length, Nat.eqb_refl. cbn [negb].
  f_equal. exact (padd_0 (b0 :: b)).
Qed.
Lemma Qplus_0_L (q : Q) : (0 + q)%Q = q.
Proof. destruct q as [a b]. unfold Qplus. cbn. f_equal. lia. Qed.
Lemma acc_acc_0 a : acc_acc acc0 a = a.
Proof. destruct a as [t n]. unfold acc_acc. cbn [a_total a_num acc0]. now rewrite Qplus_0_L, Z.add_0_l. Qed.
Definition full (m : mstats) : Prop := length (ms_map m) = NUM_TYPES /\ length (ms_soft m) = NUM_TYPES.
Lemma ms_acc_ok a b : full a -> full b -> ms_acc a b = Ok (ms_add a b).
Proof. intros [A1 A2] [B1 B2]. unfold ms_acc. rewrite !map_acc_ok by assumption. reflexivity. Qed.
Lemma ms_acc_0 b : full b -> ms_acc ms0 b = Ok b.
Proof.
  intros [B1 B2]. unfold ms_acc. cbn [ms0 ms_map ms_soft ms_ade ms_fde ms_miss ms_overlap].
  rewrite !map_acc_0 by assumption. cbn [bind]. rewrite !acc_acc_0. now destruct b.
Qed.
Lemma good_full m : good_ms m -> full m.
Proof. intros H. split; [exact (proj1 (g_map m H))|exact (proj1 (g_soft m H))]. Qed.
Lemma padd_length a b : length a = length b -> length (padd a b) = length a.
Proof. intros H. unfold padd. rewrite map_length, combine_length. lia. Qed.
Lemma good_padd a b : good_map a -> good_map b -> good_map (padd a b).
Proof.
  intros [A1 A2] [B1 B2]. split; [rewrite padd_length; congruence|]. rewrite Forall_forall in *.
  intros p Hp. unfold padd in Hp. apply in_map_iff in Hp. destruct Hp as ([x y] & <- & Hp).
  cbn [fst snd]. apply good_ps_acc; [apply A2; eapply in_combine_l; exact Hp|apply B2; eapply in_combine_r; exact Hp].
Qed.
Lemma unit_acc_acc a b : unit_acc a -> unit_acc b -> unit_acc (acc_acc a b).
Proof.
  unfold unit_acc. cbn [acc_acc a_total a_num]. intros [A1 A2] [B1 B2]. split; [lia|]. rewrite inject_Z_plus. lra.
Qed.
Lemma pos_acc_acc a b : pos_acc a -> pos_acc b -> pos_acc (acc_acc a b).
Proof. unfold pos_acc. cbn [acc_acc a_total a_num]. intros [A1 A2] [B1 B2]. split; [lia|]. lra. Qed.
Lemma good_ms_add a b : good_ms a -> good_ms b -> good_ms (ms_add a b).
Proof.
  intros [A1 A2 A3 A4 A5 A6] [B1 B2 B3 B4 B5 B6]. constructor; cbn [ms_add ms_ade ms_fde ms_miss ms_overlap ms_map ms_soft];
    auto using pos_acc_acc, unit_acc_acc, good_padd.
Qed.
(** ** The metrics of one prediction are good *)
Lemma classify_range g p tr ty : classify_track g p tr = Ok (Some ty) -> 0 <= ty < 8.
Proof.
  unfold classify_track. destruct (last_valid _ None) as [e|]; [|discriminate].
  destruct (at_ (tr_states tr) p) as [s|]; cbn [bind]; [|discriminate]. destruct (st_valid s); cbn [negb]; [|discriminate].
  destruct (g_rotate g _ _) as [dx dy].
  repeat match goal with |- context [if ?b then _ else _] => destruct b end; intros [= <-];
    unfold STATIONARY, STRAIGHT, STRAIGHT_LEFT, STRAIGHT_RIGHT, LEFT_U_TURN, LEFT_TURN, RIGHT_U_TURN, RIGHT_TURN; lia.
Qed.
Lemma foldM_inv {A S} (P : S -> Prop) (f : S -> A -> result S) l : (forall s a s', In a l -> P s -> f s a = Ok s' -> P s') ->
  forall s s', P s -> foldM f l s = Ok s' -> P s'.
Proof.
  induction l as [|a l IH]; intros H s s' Hs; cbn [foldM]; [now intros [= <-]|].
  destruct (f s a) as [s1|] eqn:E; cbn [bind]; [|discriminate]. apply IH; [intros; eapply H; eauto; now right|].
  eapply H; [now left|exact Hs|exact E].
Qed.
Lemma prediction_type_range g c ids ts ty : prediction_type g c ids ts = Ok (Some ty) -> 0 <= ty < 8.
Proof.
  unfold prediction_type. intros H. dbind H r E. destruct r as [t fd].
  apply (foldM_inv (fun a : Z * bool => 0 <= fst a < 8)) in E; [|intros [t' f'] a s' _ Hs; cbn [fst] in Hs|cbn; unfold STATIONARY; lia].
  - destruct fd; cbn [negb] in H; [|discriminate]. injection H as <-. cbn [fst] in E.
    destruct (t =? RIGHT_U_TURN); [unfold RIGHT_TURN; lia|exact E].
  - destruct (get_track (tj_id a) ids) as [tr|]; cbn [bind]; [|discriminate].
    destruct (classify_track g (hist c) tr) as [[t2|]|] eqn:EC; cbn [bind]; [| |discriminate].
    + intros [= <-]. apply classify_range in EC. cbn [fst]. destruct (_ <? _); cbn [fst]; assumption.
    + intros [= <-]. exact Hs.
Qed.
Lemma good_empty : good_map (repeat ps0 NUM_TYPES).
Proof. split; [apply repeat_length|]. rewrite Forall_forall. intros p Hp. apply repeat_spec in Hp. subst p. apply good_ps0. Qed.
Lemma map_stats_good g c ids sc soft m l : map_stats g c ids sc soft m = Ok l -> good_map l.
Proof.
  unfold map_stats. destruct m as [|j0 m]; [intros H; apply Ok_inj in H; subst l; apply good_empty|].
  destruct (jt_trajs j0) as [|t ts]; [intros H; apply Ok_inj in H; subst l; apply good_empty|].
  intros H. dbind H ty Et. destruct ty as [ty|]; [|apply Ok_inj in H; subst l; apply good_empty].
  apply prediction_type_range in Et. dbind H ms Em.
  pose proof (sample_loop_found soft ms false) as F. pose proof (sample_loop_taken soft ms false) as T.
  pose proof (sample_loop_nonempty soft ms) as N.
  destruct (sample_loop soft ms false) as [samples taken]. cbn [fst snd] in *. apply Ok_inj in H. subst l.
  set (b := {| ps_samples := samples; ps_num := if taken then 1 else 0 |}).
  assert (G : good_ps b).
  { unfold good_ps, b. cbn [ps_samples ps_num]. rewrite F, T.
    assert (S : some_true ms = true -> some_measured ms = true).
    { unfold some_true, some_measured. rewrite !existsb_exists. intros (x & I & Hx). exists x. split; [exact I|]. destruct (snd x) as [[|]|]; congruence. }
    destruct (some_measured ms).
    - split; [lia|]. split; [destruct (some_true ms); lia|lia].
    - destruct (some_true ms); [specialize (S eq_refl); discriminate|]. split; [lia|]. split; [lia|]. rewrite N. discriminate. }
  split.
  - rewrite app_length, firstn_length, repeat_length. cbn [length]. rewrite skipn_length, repeat_length. unfold NUM_TYPES. lia.
  - pose proof good_empty as [_ E]. rewrite Forall_forall in *. intros p Hp. apply in_app_or in Hp.
    destruct Hp as [Hp|[<-|Hp]]; [apply E; eapply in_firstn; exact Hp|exact G|].
    apply E. rewrite <- (firstn_skipn (S (Z.to_nat ty))). apply in_or_app. now right.
Qed.
Lemma div_pos (x : Q) n : 0 < n -> (0 <= x)%Q -> (0 <= x / inject_Z n)%Q.
Proof. intros Hn Hx. apply Qle_shift_div_l; [change 0%Q with (inject_Z 0); rewrite <- Zlt_Qlt; lia|]. rewrite Qmult_0_l. exact Hx. Qed.
Lemma unit_acc0 : unit_acc acc0.
Proof. unfold unit_acc. cbn [acc0 a_total a_num]. change (inject_Z 0) with 0%Q. split; [lia|lra]. Qed.
Lemma unit_acc1 v : (0 <= v <= 1)%Q -> unit_acc (acc_add acc0 v).
Proof. intros H. unfold unit_acc. cbn [acc_add acc0 a_total a_num]. change (inject_Z (0 + 1)) with 1%Q. split; [lia|lra]. Qed.
Lemma miss_loop_unit g c ids sc l : forall valid a, miss_loop g c ids sc l valid = Ok a -> unit_acc a.
Proof.
  induction l as [|j l IH]; intros valid a; cbn [miss_loop].
  - intros [= <-]. destruct valid; [apply unit_acc1; lra|apply unit_acc0].
  - intros H. dbind H b E. destruct b as [[|]|]; [|eapply IH; exact H|eapply IH; exact H].
    injection H as <-. apply unit_acc1. lra.
Qed.
Lemma overlap_unit g c ids s n m a : overlap_rate g c ids s n m = Ok a -> unit_acc a.
Proof.
  unfold overlap_rate. intros H. dbind H trs E1. dbind H cf E2. dbind H j E3. dbind H o E4. injection H as <-.
  apply unit_acc1. destruct o; lra.
Qed.
Section Hypot.
Variable g : geom.
Hypothesis Hhyp : forall x y, (0 <= g_hypot g x y)%Q.
Lemma displacement_at_pos c t tr i d : displacement_at g c t tr i = Ok (Some d) -> (0 <= d)%Q.
Proof using Hhyp.
  unfold displacement_at. intros H. dbind H k E1. dbind H s E2. destruct (st_valid s); cbn [negb] in H; [|discriminate].
  dbind H x E3. dbind H y E4. injection H as <-. apply Hhyp.
Qed.
Lemma average_displacement_pos c t tr n d : average_displacement g c t tr n = Ok (Some d) -> (0 <= d)%Q.
Proof using Hhyp.
  unfold average_displacement. intros H. dbind H r E. destruct r as [e k].
  apply (foldM_inv (fun a : Q * Z => (0 <= fst a)%Q /\ 0 <= snd a)) in E; [|intros [e' k'] i s' _ [He Hk]|cbn; lra || (split; [lra|lia])].
  - cbn [fst snd] in E. destruct E as [E1 E2]. destruct (Z.eqb_spec k 0); [discriminate|]. injection H as <-. apply div_pos; [lia|exact E1].
  - cbn [fst snd] in *. destruct (displacement_at g c t tr i) as [[d'|]|] eqn:ED; cbn [bind]; [| |discriminate].
    + intros [= <-]. apply displacement_at_pos in ED. cbn [fst snd]. split; [lra|lia].
    + intros [= <-]. cbn [fst snd]. split; assumption.
Qed.
Lemma joint_loop_pos c ids n final ts : forall q k q' k', (0 <= q)%Q -> 0 <= k -> joint_loop g c ids n final ts q k = Ok (q', k') -> (0 <= q')%Q /\ 0 <= k'.
Proof using Hhyp.
  induction ts as [|t ts IH]; intros q k q' k' Hq Hk; cbn [joint_loop]; [intros [= <- <-]; now split|].
  intros H. dbind H tr Et. dbind H d Ed. destruct d as [d|]; [|injection H as <- <-; now split].
  assert (0 <= d)%Q by (destruct final; [eapply displacement_at_pos|eapply average_displacement_pos]; exact Ed).
  apply IH in H; [exact H|lra|lia].
Qed.
Lemma joint_displacement_pos c ids n final j d : joint_displacement g c ids n final j = Ok (Some d) -> (0 <= d)%Q.
Proof using Hhyp.
  unfold joint_displacement. intros H. dbind H r E. destruct r as [q k]. apply joint_loop_pos in E; [|lra|lia].
  destruct (negb _); [discriminate|]. destruct (Z.eqb_spec k 0); [discriminate|]. injection H as <-. apply div_pos; [lia|tauto].
Qed.
Lemma min_displacement_pos c ids n final m a : min_displacement g c ids n final m = Ok a -> pos_acc a.
Proof using Hhyp.
  intros H. destruct (min_displacement_defined _ _ _ _ _ _ _ H) as [ds D].
  destruct (min_displacement_spec _ _ _ _ _ _ _ D) as (a' & E & S). rewrite H in E. apply Ok_inj in E. subst a'.
  unfold pos_acc. destruct S as [[[N T] _]|(v & [N T] & I & _)]; rewrite N, T; split; try lia; try lra.
  clear - Hhyp D I. unfold answers in D. induction D as [|j d l ds Hj _ IH]; [destruct I|]. destruct I as [->|I]; [|auto].
  eapply joint_displacement_pos. exact Hj.
Qed.
Lemma one_stats_good c ids s m sc st : one_stats g c ids s m sc = Ok st -> good_ms st.
Proof using Hhyp.
  unfold one_stats. intros H. dbind H a1 E1. dbind H a2 E2. dbind H a3 E3. dbind H a4 E4. dbind H a5 E5. dbind H a6 E6.
  apply Ok_inj in H. subst st. constructor; cbn [ms_ade ms_fde ms_miss ms_overlap ms_map ms_soft].
  - eapply min_displacement_pos; exact E1.
  - eapply min_displacement_pos; exact E2.
  - eapply miss_loop_unit; exact E3.
  - eapply overlap_unit; exact E4.
  - eapply map_stats_good; exact E5.
  - eapply map_stats_good; exact E6.
Qed.
End Hypot.
Lemma one_stats_full g c ids s m sc st : one_stats g c ids s m sc = Ok st -> full st.
Proof.
  unfold one_stats. intros H. dbind H a1 E1. dbind H a2 E2. dbind H a3 E3. dbind H a4 E4. dbind H a5 E5. dbind H a6 E6.
  apply Ok_inj in H. subst st. split; cbn [ms_map ms_soft]; [apply map_stats_good in E5; apply E5|apply map_stats_good in E6; apply E6].
Qed.

(** ** The map of statistics *)
Lemma key_cmp_eq a b : key_cmp a b = Eq <-> a = b.
Proof.
  destruct a as [a1 a2], b as [b1 b2]. unfold key_cmp. cbn [fst snd]. split.
  - destruct (Z.compare_spec a1 b1); intros H1; try discriminate. apply Z.compare_eq in H1. congruence.
  - intros [= -> ->]. now rewrite !Z.compare_refl.
Qed.
Lemma key_cmp_lt a b : key_cmp a b = Lt <-> fst a < fst b \/ (fst a = fst b /\ snd a < snd b).
Proof.
  unfold key_cmp. destruct (Z.compare_spec (fst a) (fst b)) as [E|E|E].
  - rewrite Z.compare_lt_iff. lia.
  - split; [now left|reflexivity].
  - split; [discriminate|lia].
Qed.
Lemma key_cmp_gt a b : key_cmp a b = Gt <-> key_cmp b a = Lt.
Proof.
  unfold key_cmp. rewrite (Z.compare_antisym (fst a) (fst b)), (Z.compare_antisym (snd a) (snd b)).
  destruct (fst a ?= fst b); cbn; [|split; intros H; discriminate H || reflexivity|split; intros H; discriminate H || reflexivity].
  destruct (snd a ?= snd b); cbn; split; intros H; discriminate H || reflexivity.
Qed.
Definition klt (a b : key) : Prop := key_cmp a b = Lt.
Lemma klt_trans a b c : klt a b -> klt b c -> klt a c.
Proof. unfold klt. rewrite !key_cmp_lt. lia. Qed.
Lemma klt_irrefl a : ~ klt a a.
Proof. unfold klt. rewrite key_cmp_lt. lia. Qed.
Definition keq (a b : key) : bool := (fst a =? fst b) && (snd a =? snd b).
Lemma keq_iff a b : keq a b = true <-> a = b.
Proof. destruct a, b. unfold keq. cbn [fst snd]. rewrite andb_true_iff, !Z.eqb_eq. split; [intros [-> ->]; reflexivity|intros [= -> ->]; auto]. Qed.
Fixpoint get (k : key) (m : bstats) : option mstats :=
  match m with [] => None | (k', v) :: m' => if keq k k' then Some v else get k m' end.
Definition sorted (m : bstats) : Prop := StronglySorted (fun a b => klt (fst a) (fst b)) m.
Fixpoint upd_t (k : key) (f : option mstats -> mstats) (m : bstats) : bstats :=
  match m with
  | [] => [(k, f None)]
  | (k', v) :: m' =>
      match key_cmp k k' with
      | Lt => (k, f None) :: m
      | Eq => (k', f (Some v)) :: m'
      | Gt => (k', v) :: upd_t k f m'
      end
  end.
Definition oput (o : option mstats) (st : mstats) : mstats := match o with None => st | Some v => ms_add v st end.
Definition allfull (m : bstats) : Prop := Forall (fun p => full (snd p)) m.
Lemma upd_ok k st m : allfull m -> full st -> upd k (fun v => ms_acc v st) m = Ok (upd_t k (fun o => oput o st) m).
Proof.
  intros Hm Hs. induction Hm as [|[k' v] m Hv Hm IH]; cbn [upd upd_t].
  - rewrite ms_acc_0 by exact Hs. reflexivity.
  - destruct (key_cmp k k').
    + cbn [snd] in Hv. rewrite ms_acc_ok by assumption. reflexivity.
    + rewrite ms_acc_0 by exact Hs. reflexivity.
    + rewrite IH. reflexivity.
Qed.
Lemma full_ms_add a b : full a -> full b -> full (ms_add a b).
Proof. intros [A1 A2] [B1 B2]. split; cbn [ms_add ms_map ms_soft]; rewrite padd_length; congruence. Qed.
Lemma full_oput m k st : allfull m -> full st -> allfull (upd_t k (fun o => oput o st) m).
Proof.
  unfold allfull. intros Hm Hs. induction Hm as [|[k' v] m Hv Hm IH]; cbn [upd_t].
  - repeat constructor; apply Hs.
  - destruct (key_cmp k k'); repeat constructor; try (apply Hs); try assumption; try apply Hv.
    apply full_ms_add; assumption.
    apply full_ms_add; assumption.
Qed.
Lemma upd_t_keys k f m x : In x (upd_t k f m) -> fst x = k \/ exists y, In y m /\ fst y = fst x.
Proof.
  induction m as [|[k' v] m IH]; cbn [upd_t]; [intros [<-|[]]; now left|].
  destruct (key_cmp k k') eqn:E.
  - intros [<-|H]; right; [exists (k', v); split; [now left|reflexivity]|exists x; split; [now right|reflexivity]].
  - intros [<-|H]; [now left|]. right. exists x. split; [exact H|reflexivity].
  - intros [<-|H]; [right; exists (k', v); split; [now left|reflexivity]|]. destruct (IH H) as [?|(y & I & Ey)]; [now left|].
    right. exists y. split; [now right|exact Ey].
Qed.
Lemma upd_t_sorted k f m : sorted m -> sorted (upd_t k f m).
Proof.
  unfold sorted. induction 1 as [|[k' v] m S IH F]; cbn [upd_t]; [repeat constructor|].
  destruct (key_cmp k k') eqn:E.
  - constructor; [exact S|exact F].
  - constructor; [now constructor|]. constructor; [exact E|]. rewrite Forall_forall in *. intros x Hx. specialize (F x Hx).
    cbn [fst] in *. eapply klt_trans; [exact E|exact F].
  - constructor; [exact IH|]. rewrite Forall_forall in *. intros x Hx. cbv beta. destruct (upd_t_keys _ _ _ _ Hx) as [Ex|(y & I & Ex)].
    + rewrite Ex. apply key_cmp_gt. exact E.
    + rewrite <- Ex. exact (F y I).
Qed.
Lemma get_notin k m : (forall x, In x m -> fst x <> k) -> get k m = None.
Proof.
  induction m as [|[k' v] m IH]; intros H; cbn [get]; [reflexivity|].
  destruct (keq k k') eqn:E; [apply keq_iff in E; subst k'; elim (H (k, v) (or_introl eq_refl)); reflexivity|].
  apply IH. intros x Hx. apply H. now right.
Qed.
Lemma get_upd k f m q : sorted m -> get q (upd_t k f m) = if keq q k then Some (f (get k m)) else get q m.
Proof.
  intros S. induction S as [|[k' v] m S IH F]; cbn [upd_t get].
  - reflexivity.
  - destruct (key_cmp k k') eqn:E.
    + apply key_cmp_eq in E. subst k'. cbn [get]. rewrite (proj2 (keq_iff k k) eq_refl). destruct (keq q k); reflexivity.
    + cbn [get]. destruct (keq q k) eqn:Eq; [|reflexivity]. f_equal. f_equal.
      rewrite (get_notin k m).
      * destruct (keq k k') eqn:E2; [|reflexivity]. apply keq_iff in E2. subst k'. elim (klt_irrefl k E).
      * intros x Hx Ex. rewrite Forall_forall in F. specialize (F x Hx). cbn [fst] in F. rewrite Ex in F.
        apply (klt_irrefl k). eapply klt_trans; [exact E|exact F].
    + cbn [get]. rewrite IH. destruct (keq q k') eqn:E2.
      * apply keq_iff in E2. subst k'. destruct (keq q k) eqn:E3; [|reflexivity]. apply keq_iff in E3. subst k.
        rewrite (proj2 (key_cmp_eq q q) eq_refl) in E. discriminate.
      * destruct (keq q k) eqn:E3; [|reflexivity]. apply keq_iff in E3. subst k. now rewrite E2.
Qed.
Definition bs_add (a b : bstats) : bstats := fold_left (fun m p => upd_t (fst p) (fun o => oput o (snd p)) m) b a.
Lemma bs_acc_ok a b : allfull a -> allfull b -> bs_acc a b = Ok (bs_add a b) /\ allfull (bs_add a b).
Proof.
  intros Ha Hb. revert a Ha. induction Hb as [|p b Hp _ IH]; intros a Ha; [split; [reflexivity|exact Ha]|].
  unfold bs_acc, bs_add in *. cbn [foldM fold_left]. rewrite (upd_ok (fst p) (snd p) a Ha Hp). cbn [bind].
  apply IH. apply full_oput; assumption.
Qed.
Lemma bs_add_sorted b : forall a, sorted a -> sorted (bs_add a b).
Proof. unfold bs_add. induction b as [|p b IH]; intros a Ha; [exact Ha|]. cbn [fold_left]. apply IH. now apply upd_t_sorted. Qed.
Definition oadd (a b : option mstats) : option mstats := match b with None => a | Some y => Some (oput a y) end.
Lemma sorted_get_in k v m : sorted m -> In (k, v) m -> get k m = Some v.
Proof.
  induction 1 as [|[k' w] m S IH F]; cbn [get]; [intros []|]. intros [[= -> ->]|H].
  - now rewrite (proj2 (keq_iff k k) eq_refl).
  - destruct (keq k k') eqn:E; [|auto]. apply keq_iff in E. subst k'. rewrite Forall_forall in F. specialize (F _ H).
    elim (klt_irrefl _ F).
Qed.
Lemma get_bs_add q b : forall a, sorted a -> sorted b -> get q (bs_add a b) = oadd (get q a) (get q b).
Proof.
  induction b as [|[k v] b IH]; intros a Ha Hb; [reflexivity|].
  inversion Hb as [|? ? Hb' F]; subst. unfold bs_add in *. cbn [fold_left fst snd].
  rewrite IH by (try apply upd_t_sorted; assumption). rewrite get_upd by exact Ha. cbn [get].
  destruct (keq q k) eqn:E; [|reflexivity]. apply keq_iff in E. subst q.
  rewrite (get_notin k b); [reflexivity|]. intros x Hx Ex. rewrite Forall_forall in F. specialize (F x Hx). cbn [fst] in F. rewrite Ex in F. elim (klt_irrefl _ F).
Qed.
(** ** Invariants of the pipeline *)
Section Inv.
Variable P : mstats -> Prop.
Hypothesis Pfull : forall m, P m -> full m.
Hypothesis Padd : forall a b, P a -> P b -> P (ms_add a b).
Definition allP (m : bstats) : Prop := Forall (fun p => P (snd p)) m.
Lemma allP_full m : allP m -> allfull m.
Proof using Pfull. apply Forall_impl. intros p. apply Pfull. Qed.
Lemma allP_put m k st : allP m -> P st -> allP (upd_t k (fun o => oput o st) m).
Proof using Padd.
  unfold allP. intros Hm Hs. induction Hm as [|[k' v] m Hv Hm IH]; cbn [upd_t].
  - now repeat constructor.
  - destruct (key_cmp k k'); constructor; auto. cbn [snd] in *. apply Padd; assumption.
Qed.
Lemma allP_add b : forall a, allP a -> allP b -> allP (bs_add a b).
Proof using Padd.
  unfold bs_add. induction b as [|p b IH]; intros a Ha Hb; [exact Ha|]. inversion Hb; subst. cbn [fold_left].
  apply IH; [|assumption]. now apply allP_put.
Qed.
Definition inv (m : bstats) : Prop := allP m /\ sorted m.
Variables (g : geom) (c : mcfg).
Hypothesis Pone : forall ids s m sc st, one_stats g c ids s m sc = Ok st -> P st.
Lemma prediction_stats_inv ids s m r r' : inv r -> prediction_stats g c ids s m r = Ok r' -> inv r'.
Proof using Pfull Padd Pone.
  unfold prediction_stats. destruct m as [|j0 m]; [now intros ? [= <-]|]. intros Hr H. dbind H ty E.
  eapply (foldM_inv inv); [|exact Hr|exact H]. cbv beta. intros q sc q' _ [Hq1 Hq2] Hs. dbind Hs st Es.
  apply Pone in Es. rewrite upd_ok in Hs by (try (apply allP_full; assumption); apply Pfull; assumption).
  apply Ok_inj in Hs. subst q'. split; [now apply allP_put|now apply upd_t_sorted].
Qed.
Lemma all_metrics_inv ids s ms : forall r r', inv r -> all_metrics g c ids s ms r = Ok r' -> inv r'.
Proof using Pfull Padd Pone.
  induction ms as [|m ms IH]; intros r r' Hr; cbn [all_metrics]; [now intros [= <-]|].
  destruct (is_empty_mmp m); [now intros [= <-]|]. intros H. dbind H r1 E. eapply IH; [|exact H].
  eapply prediction_stats_inv; eassumption.
Qed.
Lemma inv_nil : inv [].
Proof using. split; constructor. Qed.
Lemma compute_stats_inv p s r : compute_stats g c p s = Ok r -> inv r.
Proof using Pfull Padd Pone.
  unfold compute_stats. intros H. dbind H u1 E1. dbind H u2 E2. dbind H ids E3. dbind H u4 E4. dbind H u5 E5.
  eapply all_metrics_inv; [|exact H]. apply inv_nil.
Qed.
Lemma total_stats_inv l r : total_stats g c l = Ok r -> inv r.
Proof using Pfull Padd Pone.
  unfold total_stats. apply (foldM_inv inv); [|apply inv_nil].
  intros tot [p [s|]] tot' _ Ht; cbn [fst snd]; [|discriminate]. intros H. dbind H st E. apply compute_stats_inv in E.
  destruct Ht as [T1 T2], E as [S1 S2]. rewrite (proj1 (bs_acc_ok tot st (allP_full _ T1) (allP_full _ S1))) in H.
  apply Ok_inj in H. subst tot'. split; [now apply allP_add|now apply bs_add_sorted].
Qed.
End Inv.
(** ** Ranges *)
Lemma acc_mean_unit a : unit_acc a -> (0 <= acc_mean a <= 1)%Q.
Proof.
  intros [H1 H2]. unfold acc_mean. destruct (Z.eqb_spec (a_num a) 0); [lra|].
  assert (0 < inject_Z (a_num a))%Q by (change 0%Q with (inject_Z 0); rewrite <- Zlt_Qlt; lia).
  split; [apply Qle_shift_div_l; [assumption|lra]|apply Qle_shift_div_r; [assumption|lra]].
Qed.
Lemma acc_mean_pos a : pos_acc a -> (0 <= acc_mean a)%Q.
Proof.
  intros [H1 H2]. unfold acc_mean. destruct (Z.eqb_spec (a_num a) 0); [lra|]. apply div_pos; [lia|exact H2].
Qed.
Lemma bucket_eta b : b = {| ps_samples := ps_samples b; ps_num := ps_num b |}. Proof. now destruct b. Qed.
Lemma map_metric_unit l : Forall good_ps l -> (0 <= map_metric l <= 1)%Q.
Proof.
  intros H. unfold map_metric. set (used := filter _ l). destruct (Nat.eqb_spec (length used) 0) as [|E]; [lra|].
  assert (P : (0 < inject_Z (Z.of_nat (length used)))%Q) by (change 0%Q with (inject_Z 0); rewrite <- Zlt_Qlt; lia).
  destruct (sum_bounds (map bucket_map used)) as [L U].
  { intros x Hx. apply in_map_iff in Hx. destruct Hx as (b & <- & Hb). unfold used in Hb. apply filter_In in Hb. destruct Hb as [Hb Hne].
    rewrite Forall_forall in H. destruct (H b Hb) as (G1 & G2 & G3). rewrite (bucket_eta b). apply bucket_map_unit; [|exact G2].
    apply G3. destruct (ps_samples b); [discriminate|discriminate]. }
  rewrite map_length in U. change (qsum (map bucket_map used)) with (sum_list (map bucket_map used)).
  split; [apply Qle_shift_div_l; [exact P|rewrite Qmult_0_l; exact L]|apply Qle_shift_div_r; [exact P|rewrite Qmult_1_l; exact U]].
Qed.
Theorem metrics_ranges g c l bs b : (forall x y, (0 <= g_hypot g x y)%Q) -> motion_metrics g c l = Ok bs -> In b bs ->
  (0 <= b_ade b)%Q /\ (0 <= b_fde b)%Q /\ (0 <= b_miss b <= 1)%Q /\ (0 <= b_overlap b <= 1)%Q /\
  (0 <= b_map b <= 1)%Q /\ (0 <= b_soft b <= 1)%Q.
Proof.
  intros Hh H Hb. unfold motion_metrics in H. dbind H tot E. apply Ok_inj in H. subst bs.
  apply (total_stats_inv good_ms good_full good_ms_add) in E.
  2:{ intros ids s m sc st. apply one_stats_good. exact Hh. }
  destruct E as [E _]. apply in_map_iff in Hb. destruct Hb as (p & <- & Hp). unfold allP in E. rewrite Forall_forall in E.
  destruct (E p Hp) as [G1 G2 G3 G4 [_ G5] [_ G6]].
  cbn [to_bundle b_ade b_fde b_miss b_overlap b_map b_soft].
  split; [now apply acc_mean_pos|]. split; [now apply acc_mean_pos|]. split; [now apply acc_mean_unit|].
  split; [now apply acc_mean_unit|]. split; now apply map_metric_unit.
Qed.

(** ** Order of the scenarios *)
Definition acc_eq (a b : accum) : Prop := a_num a = a_num b /\ (a_total a == a_total b)%Q.
Definition ps_eq (a b : pstats) : Prop := ps_num a = ps_num b /\ Permutation (ps_samples a) (ps_samples b).
Record ms_eq (a b : mstats) : Prop := {
  e_ade : acc_eq (ms_ade a) (ms_ade b); e_fde : acc_eq (ms_fde a) (ms_fde b); e_miss : acc_eq (ms_miss a) (ms_miss b);
  e_ov : acc_eq (ms_overlap a) (ms_overlap b); e_map : Forall2 ps_eq (ms_map a) (ms_map b); e_soft : Forall2 ps_eq (ms_soft a) (ms_soft b) }.
Definition o_eq (a b : option mstats) : Prop :=
  match a, b with Some x, Some y => ms_eq x y | None, None => True | _, _ => False end.
Lemma ps_eq_refl a : ps_eq a a. Proof. split; [reflexivity|apply Permutation_refl]. Qed.
Lemma ps_eq_list_refl l : Forall2 ps_eq l l.
Proof. induction l; constructor; auto using ps_eq_refl. Qed.
Lemma ms_eq_refl a : ms_eq a a.
Proof. constructor; try (split; reflexivity); apply ps_eq_list_refl. Qed.
Lemma acc_eq_trans a b c : acc_eq a b -> acc_eq b c -> acc_eq a c.
Proof. intros [H1 H2] [K1 K2]. split; [congruence|]. now rewrite H2. Qed.
Lemma acc_eq_sym a b : acc_eq a b -> acc_eq b a.
Proof. intros [H1 H2]. split; [congruence|]. now symmetry. Qed.
Lemma ps_eq_trans a b c : ps_eq a b -> ps_eq b c -> ps_eq a c.
Proof. intros [H1 H2] [K1 K2]. split; [congruence|]. now rewrite H2. Qed.
Lemma forall2_trans {A} (R : A -> A -> Prop) : (forall a b c, R a b -> R b c -> R a c) -> forall l l' l'', Forall2 R l l' -> Forall2 R l' l'' -> Forall2 R l l''.
Proof. intros T l l' l'' H. revert l''. induction H; intros l2 H'; inversion H'; subst; constructor; eauto. Qed.
Lemma ms_eq_trans a b c : ms_eq a b -> ms_eq b c -> ms_eq a c.
Proof.
  intros [A1 A2 A3 A4 A5 A6] [B1 B2 B3 B4 B5 B6]. constructor; try (eapply acc_eq_trans; eassumption);
  eapply forall2_trans; eauto using ps_eq_trans.
Qed.
Lemma forall2_sym {A} (R : A -> A -> Prop) : (forall a b, R a b -> R b a) -> forall l l', Forall2 R l l' -> Forall2 R l' l.
Proof. intros T l l' H. induction H; constructor; auto. Qed.
Lemma ms_eq_sym a b : ms_eq a b -> ms_eq b a.
Proof.
  intros [A1 A2 A3 A4 A5 A6]. constructor; try (apply acc_eq_sym; assumption);
    (apply forall2_sym; [intros x y [H1 H2]; split; [congruence|now symmetry]|assumption]).
Qed.
Lemma o_eq_refl a : o_eq a a. Proof. destruct a; cbn; auto using ms_eq_refl. Qed.
Lemma o_eq_trans a b c : o_eq a b -> o_eq b c -> o_eq a c.
Proof. destruct a, b, c; cbn; try tauto. apply ms_eq_trans. Qed.
Lemma acc_comm a b : acc_eq (acc_acc a b) (acc_acc b a).
Proof. split; cbn [acc_acc a_num a_total]; [lia|ring]. Qed.
Lemma acc_assoc a b c : acc_eq (acc_acc (acc_acc a b) c) (acc_acc a (acc_acc b c)).
Proof. split; cbn [acc_acc a_num a_total]; [lia|ring]. Qed.
Lemma acc_cong a a' b b' : acc_eq a a' -> acc_eq b b' -> acc_eq (acc_acc a b) (acc_acc a' b').
Proof. intros [H1 H2] [K1 K2]. split; cbn [acc_acc a_num a_total]; [lia|]. now rewrite H2, K2. Qed.
Lemma padd_comm a : forall b, length a = length b -> Forall2 ps_eq (padd a b) (padd b a).
Proof.
  induction a as [|x a IH]; intros [|y b] H; cbn [length] in H; try discriminate; [constructor|].
  unfold padd in *. cbn [combine map fst snd]. constructor; [|apply IH; lia].
  split; cbn [ps_acc ps_num ps_samples]; [lia|apply Permutation_app_comm].
Qed.
Lemma padd_assoc a : forall b c, length a = length b -> length b = length c -> Forall2 ps_eq (padd (padd a b) c) (padd a (padd b c)).
Proof.
  induction a as [|x a IH]; intros [|y b] [|z c] H H'; cbn [length] in H, H'; try discriminate; [constructor|].
  unfold padd in *. cbn [combine map fst snd]. constructor; [|apply IH; lia].
  split; cbn [ps_acc ps_num ps_samples]; [lia|]. rewrite app_assoc. apply Permutation_refl.
Qed.
Lemma padd_cong a a' : Forall2 ps_eq a a' -> forall b b', Forall2 ps_eq b b' -> Forall2 ps_eq (padd a b) (padd a' b').
Proof.
  induction 1 as [|x x' a a' [X1 X2] _ IH]; intros b b' H; [constructor|]. inversion H as [|y y' c c' [Y1 Y2] Hc]; subst; [constructor|].
  unfold padd in *. cbn [combine map fst snd]. constructor; [|apply IH; assumption].
  split; cbn [ps_acc ps_num ps_samples]; [lia|]. now apply Permutation_app.
Qed.
Lemma ms_add_comm a b : full a -> full b -> ms_eq (ms_add a b) (ms_add b a).
Proof. intros [A1 A2] [B1 B2]. constructor; cbn [ms_add ms_ade ms_fde ms_miss ms_overlap ms_map ms_soft]; try apply acc_comm; apply padd_comm; congruence. Qed.
Lemma ms_add_assoc a b c : full a -> full b -> full c -> ms_eq (ms_add (ms_add a b) c) (ms_add a (ms_add b c)).
Proof. intros [A1 A2] [B1 B2] [C1 C2]. constructor; cbn [ms_add ms_ade ms_fde ms_miss ms_overlap ms_map ms_soft]; try apply acc_assoc; apply padd_assoc; congruence. Qed.
Lemma ms_add_cong a a' b b' : ms_eq a a' -> ms_eq b b' -> ms_eq (ms_add a b) (ms_add a' b').
Proof.
  intros [A1 A2 A3 A4 A5 A6] [B1 B2 B3 B4 B5 B6].
  constructor; cbn [ms_add ms_ade ms_fde ms_miss ms_overlap ms_map ms_soft]; try (apply acc_cong; assumption); apply padd_cong; assumption.
Qed.
Definition ofull (o : option mstats) : Prop := match o with Some m => full m | None => True end.
Lemma ofull_oadd a b : ofull a -> ofull b -> ofull (oadd a b).
Proof. destruct a, b; cbn; auto. apply full_ms_add. Qed.
Lemma oadd_swap a b c : ofull a -> ofull b -> ofull c -> o_eq (oadd (oadd a b) c) (oadd (oadd a c) b).
Proof.
  destruct a as [a|], b as [b|], c as [c|]; cbn; intros Ha Hb Hc; auto using ms_eq_refl, ms_add_comm.
  eapply ms_eq_trans; [apply ms_add_assoc; assumption|].
  eapply ms_eq_trans; [apply ms_add_cong; [apply ms_eq_refl|apply ms_add_comm; assumption]|].
  apply ms_eq_sym, ms_add_assoc; assumption.
Qed.
Lemma oadd_cong a a' b : o_eq a a' -> o_eq (oadd a b) (oadd a' b).
Proof.
  destruct a, a', b; cbn; try tauto; auto using ms_eq_refl. intros H. apply ms_add_cong; [exact H|apply ms_eq_refl].
Qed.
Lemma fold_oadd_cong l : forall a a', o_eq a a' -> o_eq (fold_left oadd l a) (fold_left oadd l a').
Proof. induction l as [|x l IH]; intros a a' H; [exact H|]. cbn [fold_left]. apply IH. now apply oadd_cong. Qed.
Lemma fold_oadd_perm l l' : Permutation l l' -> Forall ofull l -> forall a, ofull a -> o_eq (fold_left oadd l a) (fold_left oadd l' a).
Proof.
  induction 1 as [|x l l' P IH|x y l|l l' l'' P1 IH1 P2 IH2]; intros HF a Ha.
  - apply o_eq_refl.
  - inversion HF; subst. cbn [fold_left]. apply IH; [assumption|]. now apply ofull_oadd.
  - inversion HF as [|? ? F1 F2]; subst. inversion F2; subst. cbn [fold_left]. apply fold_oadd_cong. now apply oadd_swap.
  - eapply o_eq_trans; [apply IH1; assumption|]. apply IH2; [|exact Ha].
    rewrite Forall_forall in *. intros x Hx. apply HF. apply (Permutation_in _ (Permutation_sym P1) Hx).
Qed.
(** Two sorted maps with equivalent entries are equivalent lists. *)
Definition entry_eq (p q : key * mstats) : Prop := fst p = fst q /\ ms_eq (snd p) (snd q).
Lemma sorted_ext a : sorted a -> forall b, sorted b -> (forall k, o_eq (get k a) (get k b)) -> Forall2 entry_eq a b.
Proof.
  induction 1 as [|[k v] a Sa IH Fa]; intros b Sb H.
  - destruct b as [|[k' w] b]; [constructor|]. specialize (H k'). cbn [get] in H. rewrite (proj2 (keq_iff k' k') eq_refl) in H. destruct H.
  - inversion Sb as [|[k' w] b' Sb' Fb]; subst.
    { specialize (H k). cbn [get] in H. rewrite (proj2 (keq_iff k k) eq_refl) in H. destruct H. }
    rewrite Forall_forall in Fa, Fb.
    assert (N : forall k0 (m : bstats), (forall x, In x m -> klt k0 (fst x)) -> get k0 m = None).
    { intros k0 m Hm. apply get_notin. intros x Hx E. specialize (Hm x Hx). rewrite E in Hm. elim (klt_irrefl _ Hm). }
    assert (E : k = k').
    { destruct (key_cmp k k') eqn:C; [now apply key_cmp_eq| |].
      - exfalso. specialize (H k). cbn [get] in H. rewrite (proj2 (keq_iff k k) eq_refl) in H.
        destruct (keq k k') eqn:E; [apply keq_iff in E; subst; elim (klt_irrefl _ C)|].
        rewrite (N k b') in H; [destruct H|]. intros x Hx. eapply klt_trans; [exact C|exact (Fb x Hx)].
      - exfalso. apply key_cmp_gt in C. specialize (H k'). cbn [get] in H. rewrite (proj2 (keq_iff k' k') eq_refl) in H.
        destruct (keq k' k) eqn:E; [apply keq_iff in E; subst; elim (klt_irrefl _ C)|].
        rewrite (N k' a) in H; [destruct H|]. intros x Hx. eapply klt_trans; [exact C|exact (Fa x Hx)]. }
    subst k'. constructor.
    + split; [reflexivity|]. specialize (H k). cbn [get] in H. rewrite (proj2 (keq_iff k k) eq_refl) in H. exact H.
    + apply IH; [exact Sb'|]. intros q. specialize (H q). cbn [get] in H. destruct (keq q k) eqn:E; [|exact H].
      apply keq_iff in E. subst q. rewrite (N k a), (N k b'); [exact I| |]; [exact (fun x Hx => Fb x Hx)|exact (fun x Hx => Fa x Hx)].
Qed.
(** The total as a fold over the statistics of the scenarios. *)
Definition scenario_stats (g : geom) (c : mcfg) (ps : preds * option scenario) : result bstats :=
  match snd ps with None => Err ValueError | Some s => compute_stats g c (fst ps) s end.
Definition ok_stats (m : bstats) : Prop := allfull m /\ sorted m.
Lemma scenario_stats_ok g c ps m : scenario_stats g c ps = Ok m -> ok_stats m.
Proof.
  unfold scenario_stats. destruct (snd ps) as [s|]; [|discriminate]. intros H.
  apply (compute_stats_inv full (fun _ H => H) full_ms_add g c) in H; [exact H|].
  intros ids s' m' sc st. apply one_stats_full.
Qed.
Lemma total_stats_fold g c l : forall tot, ok_stats tot ->
  foldM (fun tot ps => match snd ps with
                       | None => Err ValueError
                       | Some s => do st <- compute_stats g c (fst ps) s; bs_acc tot st
                       end) l tot = do sts <- mapM (scenario_stats g c) l; Ok (fold_left bs_add sts tot).
Proof.
  induction l as [|ps l IH]; intros tot Ht; cbn [foldM mapM]; [reflexivity|].
  pose proof (scenario_stats_ok g c ps) as Hps. unfold scenario_stats in Hps |- * at 1. destruct (snd ps) as [s|]; [|reflexivity].
  destruct (compute_stats g c (fst ps) s) as [st|]; cbn [bind]; [|reflexivity]. specialize (Hps st eq_refl).
  destruct Ht as [T1 T2], Hps as [S1 S2]. destruct (bs_acc_ok tot st T1 S1) as [E F]. rewrite E. cbn [bind].
  rewrite IH by (split; [exact F|now apply bs_add_sorted]).
  destruct (mapM (scenario_stats g c) l); reflexivity.
Qed.
Lemma fold_bs_get q sts : forall tot, sorted tot -> Forall ok_stats sts ->
  get q (fold_left bs_add sts tot) = fold_left oadd (map (get q) sts) (get q tot) /\ sorted (fold_left bs_add sts tot).
Proof.
  induction sts as [|st sts IH]; intros tot Ht HF; [now split|]. inversion HF as [|? ? [_ S] HF']; subst. cbn [fold_left map].
  destruct (IH (bs_add tot st) (bs_add_sorted st tot Ht) HF') as [E1 E2]. split; [|exact E2]. rewrite E1. now rewrite get_bs_add.
Qed.
Lemma mapM_perm {A B} (f : A -> result B) l l' : Permutation l l' ->
  match mapM f l, mapM f l' with Ok r, Ok r' => Permutation r r' | Err _, Err _ => True | _, _ => False end.
Proof.
  assert (R : forall l, match mapM f l, mapM f l with Ok r, Ok r' => Permutation r r' | Err _, Err _ => True | _, _ => False end)
    by (intros k; destruct (mapM f k); auto).
  induction 1 as [|x l l' _ IH|x y l|l l' l'' _ IH1 _ IH2]; cbn [mapM]; [constructor| | |].
  - destruct (f x); cbn [bind]; [|exact I]. destruct (mapM f l), (mapM f l'); cbn [bind]; auto.
  - destruct (f x), (f y); cbn [bind]; try exact I; destruct (mapM f l); cbn [bind]; try exact I. apply perm_swap.
  - destruct (mapM f l), (mapM f l'), (mapM f l''); try tauto. now rewrite IH1.
Qed.
Lemma get_ofull q m : allfull m -> ofull (get q m).
Proof.
  induction 1 as [|[k v] m Hv _ IH]; cbn [get]; [exact I|]. destruct (keq q k); [exact Hv|exact IH].
Qed.
Theorem total_stats_perm g c l l' : Permutation l l' ->
  match total_stats g c l, total_stats g c l' with
  | Ok t, Ok t' => Forall2 entry_eq t t' | Err _, Err _ => True | _, _ => False end.
Proof.
  intros P. unfold total_stats. rewrite !total_stats_fold by (split; constructor).
  pose proof (mapM_perm (scenario_stats g c) l l' P) as H.
  assert (G : forall l sts, mapM (scenario_stats g c) l = Ok sts -> Forall ok_stats sts).
  { intros k sts E. apply mapM_inv in E. induction E; constructor; [eapply scenario_stats_ok; eassumption|assumption]. }
  destruct (mapM (scenario_stats g c) l) as [sts|] eqn:E1, (mapM (scenario_stats g c) l') as [sts'|] eqn:E2; cbn [bind]; try exact H.
  apply G in E1. apply G in E2. apply sorted_ext; [apply (fold_bs_get (0, 0)); [constructor|exact E1]|apply (fold_bs_get (0, 0)); [constructor|exact E2]|].
  - intros q. destruct (fold_bs_get q sts [] ltac:(constructor) E1) as [-> _]. destruct (fold_bs_get q sts' [] ltac:(constructor) E2) as [-> _].
    apply fold_oadd_perm; [now apply Permutation_map| |exact I].
    rewrite Forall_forall in *. intros o Ho. apply in_map_iff in Ho. destruct Ho as (m & <- & Hm). apply get_ofull. apply E1. exact Hm.
Qed.
(** Bundles. *)
Lemma acc_mean_eq a b : acc_eq a b -> (acc_mean a == acc_mean b)%Q.
Proof. intros [H1 H2]. unfold acc_mean. rewrite H1. destruct (a_num b =? 0); [reflexivity|]. now rewrite H2. Qed.
Lemma map_metric_eq l l' : Forall2 ps_eq l l' -> Forall good_ps l -> (map_metric l == map_metric l')%Q.
Proof.
  intros H HG. unfold map_metric.
  set (p := fun b : pstats => match ps_samples b with [] => false | _ => true end).
  assert (G : length (filter p l) = length (filter p l') /\ (qsum (map bucket_map (filter p l)) == qsum (map bucket_map (filter p l')))%Q).
  { induction H as [|x y l l' [E P] _ IH]; [split; reflexivity|]. inversion HG as [|? ? [_ [_ Hx]] HG']; subst.
    destruct (IH HG') as [I1 I2]. cbn [filter].
    assert (p x = p y) as <-.
    { unfold p. apply Permutation_length in P. destruct (ps_samples x), (ps_samples y); cbn in P; congruence. }
    destruct (p x) eqn:Ex; [|now split]. cbn [length map qsum fold_right]. split; [lia|].
    change (fold_right Qplus 0%Q (map bucket_map (filter p l))) with (qsum (map bucket_map (filter p l))).
    change (fold_right Qplus 0%Q (map bucket_map (filter p l'))) with (qsum (map bucket_map (filter p l'))).
    rewrite I2. apply Qplus_comp; [|reflexivity]. rewrite (bucket_eta x), (bucket_eta y), <- E.
    apply bucket_map_perm; [|exact P]. apply Hx. unfold p in Ex. destruct (ps_samples x); [discriminate|discriminate]. }
  destruct G as [-> G]. destruct (Nat.eqb _ 0); [reflexivity|]. now rewrite G.
Qed.
Definition good_maps (m : mstats) : Prop := good_map (ms_map m) /\ good_map (ms_soft m).
Lemma one_stats_maps g c ids s m sc st : one_stats g c ids s m sc = Ok st -> good_maps st.
Proof.
  unfold one_stats. intros H. dbind H a1 E1. dbind H a2 E2. dbind H a3 E3. dbind H a4 E4. dbind H a5 E5. dbind H a6 E6.
  apply Ok_inj in H. subst st. split; cbn [ms_map ms_soft]; eapply map_stats_good; eassumption.
Qed.
Theorem motion_metrics_perm g c l l' : Permutation l l' ->
  match motion_metrics g c l, motion_metrics g c l' with
  | Ok t, Ok t' => Forall2 same_metrics t t' | Err _, Err _ => True | _, _ => False end.
Proof.
  intros P. unfold motion_metrics. pose proof (total_stats_perm g c l l' P) as H.
  pose proof (total_stats_inv good_maps (fun m H => conj (proj1 (proj1 H)) (proj1 (proj2 H)))
    (fun a b Ha Hb => conj (good_padd _ _ (proj1 Ha) (proj1 Hb)) (good_padd _ _ (proj2 Ha) (proj2 Hb))) g c (one_stats_maps g c) l) as HG.
  destruct (total_stats g c l) as [t|], (total_stats g c l') as [t'|]; cbn [bind]; try exact H.
  destruct (HG t eq_refl) as [Ht _]. clear HG. induction H as [|[k x] [k' y] t t' [E M] _ IH]; cbn [map]; [constructor|].
  inversion Ht as [|? ? [[_ G1] [_ G2]] Ht']; subst. constructor; [|auto]. cbn [fst snd] in *. subst k'. destruct M as [M1 M2 M3 M4 M5 M6].
  unfold same_metrics. cbn [to_bundle b_type b_step b_ade b_fde b_miss b_overlap b_map b_soft fst snd].
  split; [reflexivity|]. split; [reflexivity|]. split; [now apply acc_mean_eq|]. split; [now apply acc_mean_eq|].
  split; [now apply acc_mean_eq|]. split; [now apply acc_mean_eq|]. split; now apply map_metric_eq.
Qed.
(** ** Empty predictions *)
Theorem all_metrics_cut g c ids s ms e rest : is_empty_mmp e = true -> forall r,
  all_metrics g c ids s (ms ++ e :: rest) r = all_metrics g c ids s ms r.
Proof.
  intros He. induction ms as [|m ms IH]; intros r; cbn [app all_metrics]; [now rewrite He|].
  destruct (is_empty_mmp m); [reflexivity|]. destruct (prediction_stats g c ids s m r); cbn [bind]; [apply IH|reflexivity].
Qed.
