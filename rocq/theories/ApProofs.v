From Coq Require Import Qround Qminmax Sorting.Sorted Permutation Lqa.
From Verif Require Import Base ResultLib ApModel ApSpec.
Open Scope Q_scope.

Lemma qle_false a b : Qle_bool a b = false <-> b < a.
Proof.
  split; intros H.
  - apply Qnot_le_lt. intros Hc. apply Qle_bool_iff in Hc. congruence.
  - apply not_true_iff_false. intros Hc. apply Qle_bool_iff in Hc. apply (Qlt_not_le _ _ H Hc).
Qed.
Lemma qmax_Qmax a b : qmax a b == Qmax a b.
Proof.
  unfold qmax. destruct (Qle_bool b a) eqn:E; cbn [negb].
  - apply Qle_bool_iff in E. symmetry. now apply Q.max_l.
  - apply qle_false in E. symmetry. apply Q.max_r. now apply Qlt_le_weak.
Qed.

(** ** The envelope *)
Lemma env_ub S x s : In s S -> x <= snd s -> fst s <= env S x.
Proof.
  induction S as [|t S IH]; intros Hin Hx; [destruct Hin|]. cbn [env fold_right]. fold (env S x).
  destruct Hin as [->|Hin].
  - apply Qle_bool_iff in Hx. rewrite Hx. apply Q.le_max_l.
  - specialize (IH Hin Hx). destruct (Qle_bool x (snd t)); [|exact IH]. eapply Qle_trans; [exact IH|apply Q.le_max_r].
Qed.
Lemma env_nonneg S x : 0 <= env S x.
Proof.
  induction S as [|t S IH]; cbn [env fold_right]; [apply Qle_refl|]. fold (env S x).
  destruct (Qle_bool x (snd t)); [|exact IH]. eapply Qle_trans; [exact IH|apply Q.le_max_r].
Qed.
Lemma env_least S x b : 0 <= b -> (forall s, In s S -> x <= snd s -> fst s <= b) -> env S x <= b.
Proof.
  intros Hb H. induction S as [|t S IH]; cbn [env fold_right]; [exact Hb|]. fold (env S x).
  assert (I : env S x <= b) by (apply IH; intros s Hs; apply H; now right).
  destruct (Qle_bool x (snd t)) eqn:E; [|exact I]. apply Q.max_lub; [|exact I]. apply H; [now left|now apply Qle_bool_iff].
Qed.
Lemma env_eq S x S' x' : x == x' -> (forall s, In s S <-> In s S') -> env S x == env S' x'.
Proof.
  intros E H. apply Qle_antisym; apply env_least; try apply env_nonneg; intros s Hs Hx; apply env_ub.
  - now apply H.
  - now rewrite <- E.
  - now apply H.
  - now rewrite E.
Qed.
Lemma env_antitone S x x' : x <= x' -> env S x' <= env S x.
Proof. intros E. apply env_least; [apply env_nonneg|]. intros s Hs Hx. apply env_ub; [exact Hs|eapply Qle_trans; eassumption]. Qed.

(** ** The map *)
Definition lt_key (a b : Q * Q) : Prop := fst a < fst b.
Definition ordered (m : list (Q * Q)) : Prop := StronglySorted lt_key m.

Lemma upd_max_in k p m e : In e (upd_max k p m) -> In e m \/ fst e == k.
Proof.
  induction m as [|[k' p'] m IH]; cbn [upd_max]; intros H.
  - destruct H as [<-|[]]. right. reflexivity.
  - destruct (Qcompare k k') eqn:E.
    + destruct H as [<-|H]; [right; cbn; apply Qeq_alt in E; now symmetry|left; now right].
    + destruct H as [<-|H]; [right; reflexivity|now left].
    + destruct H as [<-|H]; [left; now left|]. destruct (IH H) as [H'|H']; [left; now right|now right].
Qed.
Lemma upd_max_ordered k p m : ordered m -> ordered (upd_max k p m).
Proof.
  unfold ordered. induction m as [|[k' p'] m IH]; cbn [upd_max]; intros H; [constructor; constructor|].
  inversion H as [|x y H1 H2]; subst. destruct (Qcompare k k') eqn:E.
  - constructor; [exact H1|]. eapply Forall_impl; [|exact H2]. intros e He. exact He.
  - apply Qlt_alt in E. constructor; [exact H|]. constructor; [exact E|]. eapply Forall_impl; [|exact H2].
    intros e He. unfold lt_key in *. cbn [fst] in *. eapply Qlt_trans; eassumption.
  - apply Qgt_alt in E. constructor; [now apply IH|]. apply Forall_forall. intros e He. apply upd_max_in in He.
    destruct He as [He|He]; [rewrite Forall_forall in H2; now apply H2|]. unfold lt_key. cbn [fst]. now rewrite He.
Qed.
(** Value of a key: entries equal to the key. *)
Definition mget (m : list (Q * Q)) (x v : Q) : Prop := exists e, In e m /\ fst e == x /\ snd e == v.
Lemma ordered_unique m e e' : ordered m -> In e m -> In e' m -> fst e == fst e' -> e = e'.
Proof.
  unfold ordered. induction m as [|a m IH]; intros H H1 H2 E; [destruct H1|]. inversion H as [|x y Hs Hf]; subst.
  rewrite Forall_forall in Hf. destruct H1 as [<-|H1], H2 as [<-|H2].
  - reflexivity.
  - specialize (Hf _ H2). unfold lt_key in Hf. rewrite E in Hf. exfalso. exact (Qlt_irrefl _ Hf).
  - specialize (Hf _ H1). unfold lt_key in Hf. rewrite E in Hf. exfalso. exact (Qlt_irrefl _ Hf).
  - now apply IH.
Qed.
(** upd_max raises the value of one key and keeps the others. *)
Lemma upd_max_mget k p m x v : ordered m -> mget m x v -> mget (upd_max k p m) x (if Qeq_bool k x then Qmax v p else v).
Proof.
  intros Ho (e & He & Ex & Ev). unfold ordered in Ho.
  induction m as [|[k' p'] m IH]; cbn [upd_max]; [destruct He|]. inversion Ho as [|a b Hs Hf]; subst.
  destruct (Qcompare k k') eqn:E.
  - apply Qeq_alt in E. destruct He as [<-|He].
    + cbn [fst snd] in *. rewrite (proj2 (Qeq_bool_iff k x)) by (now rewrite E).
      exists (k', qmax p' p). split; [now left|]. split; [exact Ex|]. cbn [snd]. now rewrite qmax_Qmax, Ev.
    + exists e. split; [now right|]. split; [exact Ex|].
      assert (Hk : Qeq_bool k x = false).
      { apply not_true_iff_false. intros Hc. apply Qeq_bool_iff in Hc. rewrite Forall_forall in Hf. specialize (Hf _ He).
        unfold lt_key in Hf. cbn [fst] in Hf. rewrite Ex, <- Hc, E in Hf. exact (Qlt_irrefl _ Hf). }
      now rewrite Hk.
  - apply Qlt_alt in E. exists e. split; [now right|]. split; [exact Ex|].
    assert (Hk : Qeq_bool k x = false).
    { apply not_true_iff_false. intros Hc. apply Qeq_bool_iff in Hc. assert (k' <= fst e).
      { destruct He as [<-|He]; [apply Qle_refl|]. rewrite Forall_forall in Hf. apply Qlt_le_weak. exact (Hf _ He). }
      rewrite Ex, <- Hc in H. apply (Qlt_not_le _ _ E H). }
    now rewrite Hk.
  - apply Qgt_alt in E. destruct He as [<-|He].
    + cbn [fst snd] in *. exists (k', p'). split; [now left|]. split; [exact Ex|].
      assert (Hk : Qeq_bool k x = false).
      { apply not_true_iff_false. intros Hc. apply Qeq_bool_iff in Hc. rewrite Hc, <- Ex in E. exact (Qlt_irrefl _ E). }
      now rewrite Hk.
    + destruct (IH Hs He) as (e' & H1 & H2 & H3). exists e'. split; [now right|auto].
Qed.
Lemma upd_max_new k p m : (exists v, mget m k v) \/ mget (upd_max k p m) k (Qmax 0 p).
Proof.
  induction m as [|[k' p'] m IH]; cbn [upd_max].
  - right. exists (k, qmax 0 p). split; [now left|]. split; [reflexivity|apply qmax_Qmax].
  - destruct (Qcompare k k') eqn:E.
    + left. exists p', (k', p'). apply Qeq_alt in E. split; [now left|]. split; [now symmetry|reflexivity].
    + right. exists (k, qmax 0 p). split; [now left|]. split; [reflexivity|apply qmax_Qmax].
    + destruct IH as [(v & e & H1 & H2)|(e & H1 & H2)].
      * left. exists v, e. split; [now right|exact H2].
      * right. exists e. split; [now right|exact H2].
Qed.

(** Invariant of the loop that fills the map. *)
Definition map_ok (S m : list (Q * Q)) : Prop :=
  ordered m /\
  (forall x, (exists e, In e m /\ fst e == x) <-> (x == 0 \/ exists s, In s S /\ snd s == x)) /\
  (forall e, In e m -> ~ fst e == 0 -> 0 <= snd e /\
     (forall s, In s S -> snd s == fst e -> fst s <= snd e) /\
     (snd e == 0 \/ exists s, In s S /\ snd s == fst e /\ fst s == snd e)).
Lemma Qmax_cases a b : Qmax a b == a \/ Qmax a b == b.
Proof. destruct (Q.max_dec a b) as [H|H]; auto. Qed.
Lemma map_ok_step S m s : map_ok S m -> map_ok (S ++ [s]) (upd_max (snd s) (fst s) m).
Proof.
  intros (Ho & Hk & Hv). destruct s as [p k]. cbn [fst snd].
  pose proof (upd_max_ordered k p m Ho) as Ho'.
  split; [exact Ho'|].
  assert (Hkeep : forall e, In e m -> exists e', In e' (upd_max k p m) /\ fst e' == fst e /\ snd e' == (if Qeq_bool k (fst e) then Qmax (snd e) p else snd e)).
  { intros e He. destruct (upd_max_mget k p m (fst e) (snd e) Ho) as (e' & H1 & H2 & H3); [exists e; split; [exact He|split; reflexivity]|].
    exists e'. auto. }
  assert (Hadd : exists e', In e' (upd_max k p m) /\ fst e' == k).
  { destruct (upd_max_new k p m) as [(v & e & H1 & H2 & H3)|(e & H1 & H2 & H3)]; [|exists e; auto].
    destruct (Hkeep e H1) as (e' & A & B & _). exists e'. split; [exact A|now rewrite B]. }
  split.
  - intros x. split.
    + intros (e & He & Ex). apply upd_max_in in He. destruct He as [He|He].
      * destruct (proj1 (Hk x)) as [H|(s & H1 & H2)]; [eauto|now left|]. right. exists s. split; [apply in_or_app; now left|exact H2].
      * right. exists (p, k). split; [apply in_or_app; right; now left|]. cbn [snd]. now rewrite <- He.
    + intros H. destruct (Qeq_dec k x) as [E|E].
      * destruct Hadd as (e' & A & B). exists e'. split; [exact A|now rewrite B].
      * assert (H' : x == 0 \/ exists s, In s S /\ snd s == x).
        { destruct H as [H|(s & H1 & H2)]; [now left|]. apply in_app_or in H1. destruct H1 as [H1|[<-|[]]]; [eauto|]. contradiction. }
        apply Hk in H'. destruct H' as (e & A & B). destruct (Hkeep e A) as (e' & C & D & _). exists e'. split; [exact C|now rewrite D].
  - intros e' He' Hn.
    destruct (upd_max_in _ _ _ _ He') as [Hin|Heq].
    + (* an old key *)
      destruct (Hkeep e' Hin) as (e2 & A & B & C).
      assert (e2 = e') by (eapply ordered_unique; eauto). subst e2. destruct (Hv e' Hin Hn) as (V1 & V2 & V3).
      destruct (Qeq_bool k (fst e')) eqn:Ek.
      * apply Qeq_bool_iff in Ek. assert (p <= snd e') by (rewrite C; apply Q.le_max_r). split; [exact V1|]. split.
        -- intros s Hs Es. apply in_app_or in Hs. destruct Hs as [Hs|[<-|[]]]; [now apply V2|exact H].
        -- destruct V3 as [V3|(s & S1 & S2 & S3)]; [now left|]. right. exists s. split; [apply in_or_app; now left|auto].
      * split; [exact V1|]. split.
        -- intros s Hs Es. apply in_app_or in Hs. destruct Hs as [Hs|[<-|[]]]; [now apply V2|].
           cbn [snd] in Es. apply Qeq_bool_iff in Es. congruence.
        -- destruct V3 as [V3|(s & S1 & S2 & S3)]; [now left|]. right. exists s. split; [apply in_or_app; now left|auto].
    + (* the key k: either updated or new *)
      destruct (upd_max_new k p m) as [(v & e & H1 & H2 & H3)|(e & H1 & H2 & H3)].
      * destruct (Hkeep e H1) as (e2 & A & B & C).
        assert (e2 = e') by (eapply ordered_unique; eauto; now rewrite B, H2, Heq). subst e2.
        assert (Hne : ~ fst e == 0) by (now rewrite <- B). destruct (Hv e H1 Hne) as (V1 & V2 & V3).
        assert (Ek : Qeq_bool k (fst e) = true) by (apply Qeq_bool_iff; now symmetry).
        rewrite Ek in C. split; [|split].
        -- rewrite C. eapply Qle_trans; [exact V1|apply Q.le_max_l].
        -- intros s Hs Es. rewrite C. apply in_app_or in Hs. destruct Hs as [Hs|[<-|[]]].
           ++ eapply Qle_trans; [apply V2; [exact Hs|now rewrite Es, B]|apply Q.le_max_l].
           ++ apply Q.le_max_r.
        -- destruct (Qmax_cases (snd e) p) as [E|E].
           ++ rewrite E in C. destruct V3 as [V3|(s & S1 & S2 & S3)]; [left; now rewrite C|]. right. exists s.
              split; [apply in_or_app; now left|]. split; [now rewrite S2, B|now rewrite S3, C].
           ++ rewrite E in C. right. exists (p, k). split; [apply in_or_app; right; now left|]. cbn [fst snd].
              split; [now symmetry|now rewrite C].
      * assert (e = e') by (eapply ordered_unique; eauto; now rewrite H2, Heq). subst e.
        assert (Hold : forall s, In s S -> snd s == k -> exists e0, In e0 m /\ fst e0 == k).
        { intros s Hs Es. apply Hk. right. eauto. }
        split; [rewrite H3; apply Q.le_max_l|]. split.
        -- intros s Hs Es. apply in_app_or in Hs. destruct Hs as [Hs|[<-|[]]].
           ++ destruct (Hold s Hs) as (e0 & E1 & E2); [now rewrite Es, Heq|].
              destruct (Hkeep e0 E1) as (e2 & A & B & C). assert (e2 = e') by (eapply ordered_unique; eauto; now rewrite B, E2, Heq). subst e2.
              assert (Hne : ~ fst e0 == 0) by (now rewrite <- B). destruct (Hv e0 E1 Hne) as (V1 & V2 & _).
              assert (fst s <= snd e0) by (apply V2; [exact Hs|now rewrite Es, B]).
              rewrite C. destruct (Qeq_bool k (fst e0)); [|exact H]. eapply Qle_trans; [exact H|apply Q.le_max_l].
           ++ rewrite H3. apply Q.le_max_r.
        -- destruct (Qmax_cases 0 p) as [E|E]; rewrite E in H3; [now left|]. right.
           exists (p, k). split; [apply in_or_app; right; now left|]. cbn [fst snd]. split; [now symmetry|now rewrite H3].
Qed.
Lemma recall_map_ok S : map_ok S (recall_map S).
Proof.
  unfold recall_map.
  assert (H : forall S2 S1 m, map_ok S1 m -> map_ok (S1 ++ S2) (fold_left (fun m pr => upd_max (snd pr) (fst pr) m) S2 m)).
  { induction S2 as [|s S2 IH]; intros S1 m Hm; cbn [fold_left]; [now rewrite app_nil_r|].
    replace (S1 ++ s :: S2) with ((S1 ++ [s]) ++ S2) by (rewrite <- app_assoc; reflexivity).
    apply IH. now apply map_ok_step. }
  apply (H S [] [(0, 1)]). split; [constructor; constructor|]. split.
  - intros x. split.
    + intros (e & [<-|[]] & E). left. now symmetry.
    + intros [E|(s & [] & _)]. exists (0, 1). split; [now left|now symmetry].
  - intros e [<-|[]] Hn. exfalso. apply Hn. reflexivity.
Qed.

(** ** Fills *)
Fixpoint pts (n : nat) (last delta maxp : Q) : list (Q * Q) :=
  match n with O => [] | S n => (maxp, last - delta) :: pts n (last - delta) delta maxp end.
Lemma kErr : kError == 1 # 1000000. Proof. reflexivity. Qed.
Lemma inserted_step last r delta : 0 < delta -> delta + kError < last - r ->
  inserted (last - r) delta = (1 + inserted (last - delta - r) delta)%Z.
Proof.
  intros Hd H. unfold inserted. fold kError.
  assert (E : (last - r - kError) / delta == (last - delta - r - kError) / delta + inject_Z 1).
  { change (inject_Z 1) with 1%Q. field. lra. }
  rewrite (Qceiling_comp _ _ E).
  assert (Hc : forall x, Qceiling (x + inject_Z 1) = (Qceiling x + 1)%Z).
  { intros x. unfold Qceiling. assert (E2 : - (x + inject_Z 1) == - x + inject_Z (-1)) by (change (inject_Z (-1)) with (-(1))%Q; change (inject_Z 1) with 1%Q; ring).
    rewrite (Qfloor_comp _ _ E2). destruct (- x) as [a b]. unfold Qfloor, Qplus, inject_Z. cbn [Qnum Qden].
    rewrite Pos.mul_1_r. change (Z.pos 1) with 1%Z. rewrite Z.mul_1_r. rewrite Z.div_add by discriminate. lia. }
  rewrite Hc. assert (0 < Qceiling ((last - delta - r - kError) / delta))%Z.
  { apply Z.lt_nge. intros Hn. assert (Hq : (last - delta - r - kError) / delta <= 0).
    { eapply Qle_trans; [apply Qle_ceiling|]. unfold Qle; cbn; lia. }
    assert (0 < (last - delta - r - kError) / delta).
    { apply Qlt_shift_div_l; [exact Hd|]. lra. }
    lra. }
  lia.
Qed.
Lemma inserted_stop gap delta : 0 < delta -> gap <= delta + kError -> inserted gap delta = 0%Z.
Proof.
  intros Hd H. unfold inserted. fold kError. assert (Qceiling ((gap - kError) / delta) <= 1)%Z; [|lia].
  rewrite <- (Qceiling_Z 1). apply Qceiling_resp_le. change (inject_Z 1) with 1.
  apply Qle_shift_div_r; [exact Hd|]. lra.
Qed.
Lemma fill_ok fuel : forall last r delta maxp, 0 < delta -> last - r <= inject_Z (Z.of_nat fuel) * delta ->
  fill fuel last r delta maxp = Ok (pts (Z.to_nat (inserted (last - r) delta)) last delta maxp).
Proof.
  induction fuel as [|n IH]; intros last r delta maxp Hd Hf; cbn [fill].
  - change (inject_Z (Z.of_nat 0)) with 0 in Hf. assert (Hl : last - r <= delta + kError) by (unfold kError; lra).
    rewrite (proj2 (Qle_bool_iff _ _) Hl). cbn [negb]. now rewrite inserted_stop.
  - destruct (Qle_bool (last - r) (delta + kError)) eqn:E; cbn [negb].
    + apply Qle_bool_iff in E. now rewrite inserted_stop.
    + apply qle_false in E. rewrite IH; [|exact Hd|].
      * cbn [bind]. rewrite (inserted_step last r delta Hd E). f_equal.
        assert (0 <= inserted (last - delta - r) delta)%Z by (unfold inserted; lia).
        rewrite Z2Nat.inj_add by lia. reflexivity.
      * rewrite Nat2Z.inj_succ, <- Z.add_1_l, inject_Z_plus in Hf. change (inject_Z 1) with 1 in Hf. lra.
Qed.
Lemma fill_fuel_ok last r delta : 0 < delta -> last - r <= inject_Z (Z.of_nat (fill_fuel last r delta)) * delta.
Proof.
  intros Hd. unfold fill_fuel. set (x := (last - r) / delta).
  assert (E : last - r == x * delta) by (unfold x; field; lra).
  rewrite E. apply Qmult_le_compat_r; [|lra]. eapply Qle_trans; [apply Qle_ceiling|].
  rewrite <- Zle_Qle. lia.
Qed.
Lemma fill_ok' last r delta maxp : 0 < delta ->
  fill (fill_fuel last r delta) last r delta maxp = Ok (pts (Z.to_nat (inserted (last - r) delta)) last delta maxp).
Proof. intros Hd. apply fill_ok; [exact Hd|now apply fill_fuel_ok]. Qed.

(** ** Area *)
Fixpoint trap (l : list (Q * Q)) : Q :=
  match l with
  | a :: ((b :: _) as l') => (1 # 2) * (snd a - snd b) * (fst a + fst b) + trap l'
  | _ => 0
  end.
Lemma trapezoid_trap l : forall acc, trapezoid acc l == acc + trap l.
Proof.
  induction l as [|a l IH]; intros acc; cbn [trapezoid trap]; [ring|]. destruct l as [|b l]; [ring|].
  rewrite IH. ring.
Qed.
Lemma trap_cons a b l : trap (a :: b :: l) = (1 # 2) * (snd a - snd b) * (fst a + fst b) + trap (b :: l).
Proof. reflexivity. Qed.
Lemma trap_pts n : forall last delta e p r l,
  trap ((e, last) :: pts n last delta e ++ (p, r) :: l) ==
  inject_Z (Z.of_nat n) * delta * e + (last - r - inject_Z (Z.of_nat n) * delta) * (p + e) / 2 + trap ((p, r) :: l).
Proof.
  induction n as [|n IH]; intros last delta e p r l; cbn [pts app].
  - rewrite trap_cons. cbn [fst snd]. change (inject_Z (Z.of_nat 0)) with 0. field.
  - rewrite trap_cons, IH. cbn [fst snd]. rewrite Nat2Z.inj_succ, <- Z.add_1_l, inject_Z_plus. change (inject_Z 1) with 1. field.
Qed.

(** The curve as computed: running maximum e at recall y, remaining entries in descending order. *)
Fixpoint carea (delta e y : Q) (d : list (Q * Q)) : Q :=
  match d with
  | [] => 0
  | [(r, p)] => (y - r) * e
  | (r, p) :: d' =>
      let filled := inject_Z (inserted (y - r) delta) * delta in
      filled * e + (y - r - filled) * (qmax p e + e) / 2 + carea delta (qmax p e) r d'
  end.
Fixpoint gen (delta e y : Q) (d : list (Q * Q)) : list (Q * Q) :=
  match d with
  | [] => []
  | (r, p) :: d' => pts (Z.to_nat (inserted (y - r) delta)) y delta e ++ (qmax p e, r) :: gen delta (qmax p e) r d'
  end.
Lemma points_gen d : forall last delta e, 0 < delta -> points d last delta e = Ok (gen delta e last d).
Proof.
  induction d as [|[r p] d IH]; intros last delta e Hd; cbn [points gen]; [reflexivity|].
  rewrite fill_ok' by exact Hd. cbn [bind]. cbv zeta. rewrite IH by exact Hd. reflexivity.
Qed.
Lemma override_cons a b c l : override_last (a :: b :: c :: l) = a :: override_last (b :: c :: l).
Proof. reflexivity. Qed.
Lemma override_pts n : forall a last delta e r p,
  fst a = e -> override_last (a :: pts n last delta e ++ [(p, r)]) = a :: pts n last delta e ++ [(e, r)].
Proof.
  induction n as [|n IH]; intros a last delta e r p Ea; cbn [pts app].
  - cbn [override_last snd]. now rewrite Ea.
  - destruct (pts n (last - delta) delta e ++ [(p, r)]) as [|q l] eqn:E; [destruct n; discriminate E|].
    rewrite override_cons, <- E, IH by reflexivity. reflexivity.
Qed.
Lemma override_app a l b c l' : override_last (a :: l ++ b :: c :: l') = a :: l ++ override_last (b :: c :: l').
Proof.
  revert a. induction l as [|x l IH]; intros a; cbn [app].
  - apply override_cons.
  - destruct (l ++ b :: c :: l') as [|q k] eqn:E; [destruct l; discriminate E|].
    rewrite override_cons, IH. reflexivity.
Qed.
Lemma override_head a l : exists l', override_last (a :: l) = a :: l'.
Proof. destruct l as [|b [|c l]]; eexists; reflexivity. Qed.
Lemma trap_gen d : forall delta e y, trap (override_last ((e, y) :: gen delta e y d)) == carea delta e y d.
Proof.
  induction d as [|[r p] d IH]; intros delta e y; [reflexivity|].
  set (z := inserted (y - r) delta).
  assert (Hz : inject_Z (Z.of_nat (Z.to_nat z)) == inject_Z z) by (rewrite Z2Nat.id; [reflexivity|unfold z, inserted; lia]).
  destruct d as [|[r' p'] d].
  - cbn [gen carea]. fold z. rewrite override_pts by reflexivity. rewrite trap_pts. cbn [trap]. rewrite Hz. field.
  - change (gen delta e y ((r, p) :: (r', p') :: d)) with
      (pts (Z.to_nat z) y delta e ++ (qmax p e, r) :: gen delta (qmax p e) r ((r', p') :: d)).
    set (g := gen delta (qmax p e) r ((r', p') :: d)).
    assert (Hg : exists c l, g = c :: l).
    { unfold g. cbn [gen]. destruct (pts _ r delta (qmax p e)); cbn [app]; eauto. }
    destruct Hg as (c & l & Hg). rewrite Hg, override_app, <- Hg.
    destruct (override_head (qmax p e, r) g) as (l' & El). rewrite El, trap_pts, <- El.
    unfold g. rewrite IH. cbn [carea]. fold z. cbv zeta. rewrite Hz. reflexivity.
Qed.

(** The computed running maximum is the envelope. *)
Lemma Forall_sorted_rev m : ordered m -> StronglySorted (fun a b => fst b < fst a) (rev m).
Proof.
  unfold ordered. induction 1 as [|a m Hs IH Hf]; cbn [rev]; [constructor|].
  assert (G : forall l x, StronglySorted (fun a b : Q * Q => fst b < fst a) l -> Forall (fun e => fst x < fst e) l ->
             StronglySorted (fun a b => fst b < fst a) (l ++ [x])).
  { induction l as [|b l IHl]; intros x H1 H2; cbn [app]; [constructor; constructor|].
    inversion H1; subst. inversion H2; subst. constructor; [now apply IHl|]. apply Forall_app. split; [assumption|]. constructor; [assumption|constructor]. }
  apply G; [exact IH|]. apply Forall_rev. exact Hf.
Qed.

Section Eq.
Variables (S m : list (Q * Q)) (delta : Q).
Hypothesis Hm : map_ok S m.
Hypothesis Hpos : forall s, In s S -> 0 <= snd s.

Lemma key_nonneg e : In e m -> 0 <= fst e.
Proof.
  intros He. destruct Hm as (_ & Hk & _). destruct (proj1 (Hk (fst e))) as [H|(s & H1 & H2)].
  - exists e. split; [exact He|reflexivity].
  - rewrite H. apply Qle_refl.
  - rewrite <- H2. now apply Hpos.
Qed.
(** [done] are the entries already seen: all entries with recall >= y; e is the running maximum. *)
Lemma env_extend (done : list (Q * Q)) y e r p :
  In (r, p) m -> ~ r == 0 -> r < y ->
  (forall x, In x m -> fst x < y -> fst x <= r) -> e == env S y -> qmax p e == env S r.
Proof.
  intros Hin Hn Hlt Hnext He. destruct Hm as (Ho & Hk & Hv). destruct (Hv _ Hin Hn) as (V1 & V2 & V3). cbn [fst snd] in *.
  rewrite qmax_Qmax, He. apply Qle_antisym.
  - apply Q.max_lub.
    + destruct V3 as [V3|(s & S1 & S2 & S3)]; [rewrite V3; apply env_nonneg|]. rewrite <- S3. apply env_ub; [exact S1|]. rewrite S2. apply Qle_refl.
    + apply env_antitone. now apply Qlt_le_weak.
  - apply env_least; [eapply Qle_trans; [apply env_nonneg|apply Q.le_max_r]|]. intros s Hs Hx.
    destruct (Qlt_le_dec (snd s) y) as [H|H].
    + assert (Hk' : exists x, In x m /\ fst x == snd s) by (apply Hk; right; exists s; split; [exact Hs|reflexivity]).
      destruct Hk' as (x & X1 & X2). assert (fst x <= r) by (apply Hnext; [exact X1|now rewrite X2]).
      rewrite X2 in H0. assert (snd s == r) by (now apply Qle_antisym). eapply Qle_trans; [apply V2; [exact Hs|exact H1]|apply Q.le_max_l].
    + eapply Qle_trans; [now apply (env_ub S y s)|apply Q.le_max_r].
Qed.
Lemma carea_area d : forall e y, StronglySorted (fun a b => fst b < fst a) d -> Forall (fun x => fst x < y) d ->
  (forall x, In x d -> In x m) -> (forall x, In x m -> fst x < y -> In x d) -> (0 < y -> e == env S y) ->
  (d = [] \/ 0 < y) ->
  carea delta e y d == area S delta y (map fst d).
Proof.
  induction d as [|[r p] d IH]; intros e y Hs Hf Hsub Hall He Hne; [reflexivity|].
  assert (Hy : 0 < y) by (destruct Hne as [H|H]; [discriminate|exact H]). specialize (He Hy).
  inversion Hs as [|a b Hs' Hf']; subst. inversion Hf as [|a b Hr Hf2]; subst. cbn [fst] in *.
  destruct d as [|[r' p'] d].
  - cbn [carea map area fst]. now rewrite He.
  - assert (Hrn : 0 < r).
    { inversion Hf' as [|a b Hc _]; subst. cbn [fst] in Hc. eapply Qle_lt_trans; [|exact Hc].
      apply (key_nonneg (r', p')). apply Hsub. right. now left. }
    assert (Hn : ~ r == 0) by lra.
    assert (Hnext : forall x, In x m -> fst x < y -> fst x <= r).
    { intros x Hx Hxy. destruct (Hall x Hx Hxy) as [<-|Hin]; [apply Qle_refl|]. apply Qlt_le_weak.
      rewrite Forall_forall in Hf'. exact (Hf' x Hin). }
    assert (Hq : qmax p e == env S r) by (apply (env_extend [] y e r p); auto; apply Hsub; now left).
    assert (I := IH (qmax p e) r Hs' Hf').
    change (carea delta e y ((r, p) :: (r', p') :: d)) with
      (inject_Z (inserted (y - r) delta) * delta * e + (y - r - inject_Z (inserted (y - r) delta) * delta) * (qmax p e + e) / 2 + carea delta (qmax p e) r ((r', p') :: d)).
    change (area S delta y (map fst ((r, p) :: (r', p') :: d))) with (gap_area S delta r y + area S delta r (map fst ((r', p') :: d))).
    rewrite I.
    + unfold gap_area. rewrite Hq, He. reflexivity.
    + intros x Hx. apply Hsub. now right.
    + intros x Hx Hxr. destruct (Hall x Hx) as [<-|Hin]; [eapply Qlt_trans; eassumption| |exact Hin].
      cbn [fst] in Hxr. exfalso. exact (Qlt_irrefl _ Hxr).
    + intros _. exact Hq.
    + now right.
Qed.
End Eq.

Theorem map_value S delta : S <> [] -> 0 < delta -> delta <= 1 -> (forall s, In s S -> 0 <= snd s) ->
  exists rs a, recall_levels S rs /\ mean_average_precision S delta = Ok a /\ a == ap_spec S delta rs.
Proof.
  intros HS Hd Hd1 Hpos. pose proof (recall_map_ok S) as Hm. unfold mean_average_precision.
  assert (E0 : Qle_bool delta 0 = false) by (now apply qle_false). rewrite E0, (proj2 (Qle_bool_iff _ _) Hd1). cbn [negb].
  destruct S as [|s0 S0] eqn:ES; [contradiction|]. rewrite <- ES in *. clear HS ES.
  set (m := recall_map S) in *. set (last := match m with [] => 0 | (r, _) :: _ => r end).
  exists (map fst (rev m)). rewrite points_gen by exact Hd. cbn [bind].
  exists (trapezoid 0 (override_last (gen delta 0 last (rev m)))).
  destruct Hm as (Ho & Hk & Hv). pose proof (Forall_sorted_rev m Ho) as Hr.
  split; [|split; [reflexivity|]].
  - split.
    + clear -Hr. induction Hr as [|a l H1 IH H2]; cbn [map]; constructor; [exact IH|]. apply Forall_map. exact H2.
    + intros r. rewrite <- Hk. split.
      * intros (r' & H1 & H2). apply in_map_iff in H1. destruct H1 as (e & <- & He). exists e. split; [now apply in_rev|exact H2].
      * intros (e & H1 & H2). exists (fst e). split; [apply in_map; now apply -> in_rev|exact H2].
  - rewrite trapezoid_trap, Qplus_0_l.
    assert (Hin : forall e, In e (rev m) <-> In e m) by (intros e; split; apply in_rev).
    assert (Hlast : forall e, In e m -> last <= fst e).
    { intros e He. unfold last. destruct m as [|[r p] m']; [destruct He|]. destruct He as [<-|He]; [apply Qle_refl|].
      unfold ordered in Ho. inversion Ho as [|a b _ Hf]; subst. rewrite Forall_forall in Hf. apply Qlt_le_weak. exact (Hf e He). }
    destruct (rev m) as [|[y p] d] eqn:Er; [reflexivity|]. cbn [gen ap_spec map fst].
    assert (Hy : In (y, p) m) by (apply Hin; now left).
    rewrite inserted_stop; [|exact Hd|specialize (Hlast _ Hy); cbn [fst] in Hlast; unfold kError; lra].
    cbn [Z.to_nat pts app]. rewrite trap_gen. inversion Hr as [|a b Hs Hf]; subst.
    apply (carea_area S m delta (conj Ho (conj Hk Hv)) Hpos); auto.
    + intros x Hx. apply Hin. now right.
    + intros x Hx Hxy. apply Hin in Hx. destruct Hx as [<-|Hx]; [cbn in Hxy; exfalso; exact (Qlt_irrefl _ Hxy)|exact Hx].
    + intros Hp. assert (Hn : ~ y == 0) by lra. destruct (Hv _ Hy Hn) as (V1 & V2 & V3). cbn [fst snd] in *.
      rewrite qmax_Qmax. apply Qle_antisym.
      * apply Q.max_lub; [|apply env_nonneg].
        destruct V3 as [V3|(s & S1 & S2 & S3)]; [rewrite V3; apply env_nonneg|]. rewrite <- S3. apply env_ub; [exact S1|]. rewrite S2. apply Qle_refl.
      * apply env_least; [apply Q.le_max_r|]. intros s Hs' Hx. eapply Qle_trans; [|apply Q.le_max_l]. apply V2; [exact Hs'|].
        assert (Hkx : exists x, In x m /\ fst x == snd s) by (apply Hk; right; exists s; split; [exact Hs'|reflexivity]).
        destruct Hkx as (x & X1 & X2). apply Hin in X1. destruct X1 as [<-|X1]; [cbn in X2; now symmetry|].
        rewrite Forall_forall in Hf. specialize (Hf x X1). cbn [fst] in Hf. rewrite X2 in Hf. exfalso. apply (Qlt_not_le _ _ Hf Hx).
    + destruct d as [|x d]; [now left|right]. inversion Hf as [|a b Hc _]; subst. cbn [fst] in Hc.
      eapply Qle_lt_trans; [|exact Hc]. apply (key_nonneg S m (conj Ho (conj Hk Hv)) Hpos). apply Hin. right. now left.
Qed.

(** ** Uniqueness of levels *)
Definition desc (rs : list Q) : Prop := StronglySorted (fun a b => b < a) rs.
Lemma desc_unique rs : forall rs', desc rs -> desc rs' ->
  (forall r, (exists r', In r' rs /\ r' == r) <-> (exists r', In r' rs' /\ r' == r)) -> Forall2 Qeq rs rs'.
Proof.
  induction rs as [|a rs IH]; intros [|b rs'] H1 H2 H.
  - constructor.
  - exfalso. destruct (proj2 (H b)) as (x & [] & _). exists b. split; [now left|reflexivity].
  - exfalso. destruct (proj1 (H a)) as (x & [] & _). exists a. split; [now left|reflexivity].
  - inversion H1 as [|x y S1 F1]; subst. inversion H2 as [|x y S2 F2]; subst. rewrite Forall_forall in F1, F2.
    assert (E : a == b).
    { destruct (proj1 (H a)) as (x & X1 & X2); [exists a; split; [now left|reflexivity]|].
      destruct (proj2 (H b)) as (y & Y1 & Y2); [exists b; split; [now left|reflexivity]|].
      apply Qle_antisym.
      - rewrite <- X2. destruct X1 as [<-|X1]; [apply Qle_refl|apply Qlt_le_weak, F2, X1].
      - rewrite <- Y2. destruct Y1 as [<-|Y1]; [apply Qle_refl|apply Qlt_le_weak, F1, Y1]. }
    constructor; [exact E|]. apply IH; auto. intros r. split.
    + intros (x & X1 & X2). destruct (proj1 (H r)) as (z & [<-|Z1] & Z2); [exists x; split; [now right|exact X2]| |eauto].
      exfalso. specialize (F1 x X1). rewrite X2, <- Z2, E in F1. exact (Qlt_irrefl _ F1).
    + intros (x & X1 & X2). destruct (proj2 (H r)) as (z & [<-|Z1] & Z2); [exists x; split; [now right|exact X2]| |eauto].
      exfalso. specialize (F2 x X1). rewrite X2, <- Z2, E in F2. exact (Qlt_irrefl _ F2).
Qed.
Lemma inserted_comp g g' d : g == g' -> inserted g d = inserted g' d.
Proof. intros E. unfold inserted. f_equal. f_equal. apply Qceiling_comp. now rewrite E. Qed.
Lemma area_comp S S' delta rs : (forall s, In s S <-> In s S') -> forall rs' y y', Forall2 Qeq rs rs' -> y == y' ->
  area S delta y rs == area S' delta y' rs'.
Proof.
  intros HS. induction rs as [|x rs IH]; intros rs' y y' H Ey; inversion H as [|a b l l' Ex F]; subst; [reflexivity|].
  assert (E1 : env S y == env S' y') by (now apply env_eq). assert (E2 : env S x == env S' b) by (now apply env_eq).
  destruct rs as [|x2 rs]; inversion F as [|a2 b2 l2 l2' Ex2 F2]; subst.
  - cbn [area]. now rewrite E1, Ey, Ex.
  - change (gap_area S delta x y + area S delta x (x2 :: rs) == gap_area S' delta b y' + area S' delta b (b2 :: l2')).
    rewrite (IH (b2 :: l2') x b F Ex). apply Qplus_inj_r. unfold gap_area.
    assert (Eg : y - x == y' - b) by (now rewrite Ey, Ex).
    rewrite (inserted_comp _ _ delta Eg), E1, E2, Eg. reflexivity.
Qed.
Lemma ap_spec_comp S S' delta rs rs' : (forall s, In s S <-> In s S') -> Forall2 Qeq rs rs' ->
  ap_spec S delta rs == ap_spec S' delta rs'.
Proof. intros HS H. inversion H; subst; [reflexivity|]. cbn [ap_spec]. now apply area_comp. Qed.
Lemma levels_unique S S' rs rs' : (forall s, In s S <-> In s S') -> recall_levels S rs -> recall_levels S' rs' -> Forall2 Qeq rs rs'.
Proof.
  intros HS [H1 H2] [H3 H4]. apply desc_unique; auto. intros r. rewrite H2, H4.
  split; (intros [E|(s & A & B)]; [now left|right; exists s; split; [now apply HS|exact B]]).
Qed.

Definition valid_delta (delta : Q) : Prop := 0 < delta /\ delta <= 1.
Definition unit_samples (S : list (Q * Q)) : Prop := forall s, In s S -> 0 <= fst s <= 1 /\ 0 <= snd s <= 1.

Theorem map_value_all S delta rs : S <> [] -> 0 < delta -> delta <= 1 -> (forall s, In s S -> 0 <= snd s) ->
  recall_levels S rs -> exists a, mean_average_precision S delta = Ok a /\ a == ap_spec S delta rs.
Proof.
  intros HS H1 H2 H3 H4. destruct (map_value S delta HS H1 H2 H3) as (rs' & a & R & E & V).
  exists a. split; [exact E|]. rewrite V. apply ap_spec_comp; [reflexivity|]. now apply (levels_unique S S).
Qed.
Theorem levels_exist S : (forall s, In s S -> 0 <= snd s) -> exists rs, recall_levels S rs.
Proof.
  intros H. destruct S as [|s S].
  - exists [0]. split; [constructor; constructor|]. intros r. split.
    + intros (x & [<-|[]] & E). left. now symmetry.
    + intros [E|(s & [] & _)]. exists 0. split; [now left|now symmetry].
  - destruct (map_value (s :: S) 1) as (rs & a & R & _); [discriminate|lra|lra|exact H|eauto].
Qed.
Theorem map_perm S S' delta : 0 < delta -> delta <= 1 -> (forall s, In s S -> 0 <= snd s) -> Permutation S S' ->
  exists a a', mean_average_precision S delta = Ok a /\ mean_average_precision S' delta = Ok a' /\ a == a'.
Proof.
  intros H1 H2 H3 Hp. assert (HS : forall s, In s S <-> In s S') by (intros s; split; apply Permutation_in; [exact Hp|now apply Permutation_sym]).
  destruct S as [|s S].
  - apply Permutation_nil in Hp. subst S'. unfold mean_average_precision.
    assert (E0 : Qle_bool delta 0 = false) by (now apply qle_false). rewrite E0, (proj2 (Qle_bool_iff _ _) H2). cbn [negb].
    exists 0, 0. repeat split.
  - assert (Hne : S' <> []) by (intros ->; apply Permutation_sym, Permutation_nil in Hp; discriminate).
    destruct (map_value (s :: S) delta) as (rs & a & R & E & V); [discriminate|auto..].
    destruct (map_value S' delta Hne H1 H2) as (rs' & a' & R' & E' & V'); [intros x Hx; apply H3; now apply HS|].
    exists a, a'. split; [exact E|]. split; [exact E'|]. rewrite V, V'. apply ap_spec_comp; [exact HS|].
    now apply (levels_unique (s :: S) S').
Qed.

(** ** Bounds and monotonicity *)
Lemma filled_bounds gap delta : 0 < delta -> 0 <= gap -> 0 <= inject_Z (inserted gap delta) * delta /\ inject_Z (inserted gap delta) * delta <= gap.
Proof.
  intros Hd Hg. assert (Hi : (0 <= inserted gap delta)%Z) by (unfold inserted; lia).
  split. { apply Qmult_le_0_compat; [unfold Qle; cbn; lia|lra]. }
  destruct (Z.eq_dec (inserted gap delta) 0) as [->|Hn]; [change (inject_Z 0) with 0; lra|].
  unfold inserted in *. set (x := (gap - (1 # 1000000)) / delta) in *.
  assert (E : Z.max 0 (Qceiling x - 1) = (Qceiling x - 1)%Z) by lia. rewrite E.
  assert (Hc : inject_Z (Qceiling x - 1) < x) by apply Qceiling_lt.
  assert (Hx : x * delta == gap - (1 # 1000000)) by (unfold x; field; lra).
  apply (Qmult_lt_r _ _ delta Hd) in Hc. rewrite Hx in Hc. lra.
Qed.
Lemma Qmul_mono a b c : 0 <= a -> b <= c -> a * b <= a * c.
Proof. intros H1 H2. rewrite (Qmult_comm a b), (Qmult_comm a c). now apply Qmult_le_compat_r. Qed.
Lemma area_mono S S' delta rs : 0 < delta -> (forall x, env S x <= env S' x) -> forall y,
  desc (y :: rs) -> area S delta y rs <= area S' delta y rs.
Proof.
  intros Hd He. induction rs as [|x rs IH]; intros y Hs; [apply Qle_refl|].
  inversion Hs as [|a b Hs' Hf]; subst. inversion Hf as [|a b Hx _]; subst.
  destruct rs as [|x2 rs].
  - cbn [area]. apply Qmul_mono; [lra|apply He].
  - change (gap_area S delta x y + area S delta x (x2 :: rs) <= gap_area S' delta x y + area S' delta x (x2 :: rs)).
    apply Qplus_le_compat; [|now apply IH]. unfold gap_area.
    destruct (filled_bounds (y - x) delta Hd) as [F1 F2]; [lra|]. set (f := inject_Z (inserted (y - x) delta) * delta) in *. cbv zeta.
    pose proof (He x) as E1. pose proof (He y) as E2. apply Qplus_le_compat; [now apply Qmul_mono|].
    setoid_replace ((y - x - f) * (env S x + env S y) / 2) with ((y - x - f) * ((env S x + env S y) * (1 # 2))) by field.
    setoid_replace ((y - x - f) * (env S' x + env S' y) / 2) with ((y - x - f) * ((env S' x + env S' y) * (1 # 2))) by field.
    apply Qmul_mono; [lra|]. lra.
Qed.
(** With a constant envelope the area is that constant times the recall range. *)
Lemma area_const S delta v rs : forall y, (forall x, In x (y :: removelast rs) -> env S x == v) ->
  area S delta y rs == (y - last rs y) * v.
Proof.
  induction rs as [|x rs IH]; intros y Hv; [cbn [area last]; ring|].
  destruct rs as [|x2 rs].
  - cbn [area last]. rewrite (Hv y) by now left. ring.
  - change (gap_area S delta x y + area S delta x (x2 :: rs) == (y - last (x2 :: rs) y) * v).
    rewrite (IH x).
    + unfold gap_area. rewrite (Hv y) by now left. rewrite (Hv x) by (right; now left).
      assert (El : last (x2 :: rs) x = last (x2 :: rs) y).
      { clear. revert x2. induction rs as [|z rs IHr]; intros x2; [reflexivity|]. exact (IHr z). }
      rewrite El. field.
    + intros z Hz. apply Hv. right. exact Hz.
Qed.
Lemma area_bounds S delta rs : 0 < delta -> (forall x, env S x <= 1) -> forall y,
  desc (y :: rs) -> 0 <= area S delta y rs /\ area S delta y rs <= y - last rs y.
Proof.
  intros Hd He. induction rs as [|x rs IH]; intros y Hs; [cbn [area last]; lra|].
  inversion Hs as [|a b Hs' Hf]; subst. inversion Hf as [|a b Hx _]; subst.
  pose proof (env_nonneg S x) as N1. pose proof (env_nonneg S y) as N2. pose proof (He x) as E1. pose proof (He y) as E2.
  destruct rs as [|x2 rs].
  - cbn [area last]. split; [apply Qmult_le_0_compat; lra|]. setoid_replace (y - x) with ((y - x) * 1) at 2 by ring. apply Qmul_mono; lra.
  - change (0 <= gap_area S delta x y + area S delta x (x2 :: rs) /\ gap_area S delta x y + area S delta x (x2 :: rs) <= y - last (x2 :: rs) y).
    destruct (IH x Hs') as [I1 I2].
    assert (El : last (x2 :: rs) x = last (x2 :: rs) y).
    { clear. revert x2. induction rs as [|z rs IHr]; intros x2; [reflexivity|]. exact (IHr z). }
    rewrite El in I2. enough (0 <= gap_area S delta x y /\ gap_area S delta x y <= y - x) by lra.
    unfold gap_area. destruct (filled_bounds (y - x) delta Hd) as [F1 F2]; [lra|].
    set (f := inject_Z (inserted (y - x) delta) * delta) in *. cbv zeta.
    assert (P1 : 0 <= f * env S y) by (apply Qmult_le_0_compat; lra).
    assert (P2 : f * env S y <= f * 1) by (apply Qmul_mono; lra).
    setoid_replace ((y - x - f) * (env S x + env S y) / 2) with ((y - x - f) * ((env S x + env S y) * (1 # 2))) by field.
    assert (P3 : 0 <= (y - x - f) * ((env S x + env S y) * (1 # 2))) by (apply Qmult_le_0_compat; lra).
    assert (P4 : (y - x - f) * ((env S x + env S y) * (1 # 2)) <= (y - x - f) * 1) by (apply Qmul_mono; lra).
    lra.
Qed.
Lemma env_unit S x : (forall s, In s S -> fst s <= 1) -> env S x <= 1.
Proof. intros H. apply env_least; [lra|]. intros s Hs _. now apply H. Qed.
Lemma last_cons' {A} (l : list A) : forall z d, last (z :: l) d = last l z.
Proof.
  induction l as [|w l IH]; intros z d; [reflexivity|]. change (last (w :: l) d = last (w :: l) z). now rewrite !IH.
Qed.
Lemma levels_last S rs y : (forall s, In s S -> 0 <= snd s) -> recall_levels S (y :: rs) -> last rs y == 0.
Proof.
  intros Hpos [Hs Hl].
  assert (Hin : In (last rs y) (y :: rs)).
  { clear. revert y. induction rs as [|z rs IH]; intros y; [now left|]. rewrite last_cons'. right. exact (IH z). }
  assert (Hmin : forall x, In x (y :: rs) -> last rs y <= x).
  { clear -Hs. revert y Hs. induction rs as [|z rs IH]; intros y Hs x Hx.
    - destruct Hx as [<-|[]]. apply Qle_refl.
    - inversion Hs as [|a b Hs' Hf]; subst. assert (El : last (z :: rs) y = last rs z).
      { apply last_cons'. }
      rewrite El. destruct Hx as [<-|Hx]; [|now apply IH]. inversion Hf as [|a b Hz _]; subst.
      eapply Qle_trans; [apply (IH z Hs' z); now left|now apply Qlt_le_weak]. }
  apply Qle_antisym.
  - destruct (proj2 (Hl 0)) as (x & X1 & X2); [left; reflexivity|]. rewrite <- X2. now apply Hmin.
  - destruct (proj1 (Hl (last rs y))) as [E|(s & A & B)]; [exists (last rs y); split; [exact Hin|reflexivity]| |].
    + rewrite E. apply Qle_refl.
    + rewrite <- B. now apply Hpos.
Qed.
Theorem map_bounds S delta : 0 < delta -> delta <= 1 -> unit_samples S ->
  exists a, mean_average_precision S delta = Ok a /\ 0 <= a <= 1.
Proof.
  intros H1 H2 HS. destruct S as [|s0 S0] eqn:E0.
  - unfold mean_average_precision. assert (E : Qle_bool delta 0 = false) by (now apply qle_false).
    rewrite E, (proj2 (Qle_bool_iff _ _) H2). exists 0. split; [reflexivity|lra].
  - rewrite <- E0 in *. assert (Hne : S <> []) by (rewrite E0; discriminate). clear E0.
    assert (Hpos : forall s, In s S -> 0 <= snd s) by (intros s Hs; apply HS, Hs).
    destruct (map_value S delta Hne H1 H2 Hpos) as (rs & a & R & E & V). exists a. split; [exact E|]. rewrite V.
    destruct rs as [|y rs]; [cbn; lra|]. cbn [ap_spec]. pose proof (levels_last S rs y Hpos R) as Hl.
    destruct (area_bounds S delta rs H1 (fun x => env_unit S x (fun s Hs => proj2 (proj1 (HS s Hs)))) y (proj1 R)) as [B1 B2].
    rewrite Hl in B2. split; [exact B1|].
    assert (y <= 1). { destruct (proj1 (proj2 R y)) as [Ey|(s & A & B)]; [exists y; split; [now left|reflexivity]|lra|]. rewrite <- B. apply HS, A. }
    lra.
Qed.
Theorem map_monotone S S' delta : 0 < delta -> delta <= 1 -> (forall s, In s S -> 0 <= snd s) ->
  Forall2 (fun s s' => fst s <= fst s' /\ snd s = snd s') S S' ->
  exists a a', mean_average_precision S delta = Ok a /\ mean_average_precision S' delta = Ok a' /\ a <= a'.
Proof.
  intros H1 H2 Hpos HF.
  assert (Hto : forall s, In s S -> exists s', In s' S' /\ fst s <= fst s' /\ snd s = snd s').
  { clear -HF. induction HF as [|s s' l l' E F IH]; intros x Hx; [destruct Hx|]. destruct Hx as [<-|Hx].
    - exists s'. split; [now left|exact E].
    - destruct (IH x Hx) as (y & A & B). exists y. split; [now right|exact B]. }
  assert (Hfrom : forall s', In s' S' -> exists s, In s S /\ snd s = snd s').
  { clear -HF. induction HF as [|s s' l l' E F IH]; intros x Hx; [destruct Hx|]. destruct Hx as [<-|Hx].
    - exists s. split; [now left|apply E].
    - destruct (IH x Hx) as (y & A & B). exists y. split; [now right|exact B]. }
  inversion HF as [|s s' l l' E F]; subst.
  - unfold mean_average_precision. assert (E : Qle_bool delta 0 = false) by (now apply qle_false).
    rewrite E, (proj2 (Qle_bool_iff _ _) H2). exists 0, 0. repeat split. lra.
  - set (S1 := s :: l) in *. set (S2 := s' :: l') in *.
    assert (Hpos' : forall x, In x S2 -> 0 <= snd x).
    { intros x Hx. destruct (Hfrom x Hx) as (y & A & B). rewrite <- B. now apply Hpos. }
    destruct (map_value S1 delta) as (rs & a & R & Ea & V); [discriminate|auto..].
    assert (R2 : recall_levels S2 rs).
    { destruct R as [R1 R2]. split; [exact R1|]. intros r. rewrite R2. split; (intros [Er|(x & A & B)]; [now left|right]).
      - destruct (Hto x A) as (y & Y1 & _ & Y2). exists y. split; [exact Y1|now rewrite <- Y2].
      - destruct (Hfrom x A) as (y & Y1 & Y2). exists y. split; [exact Y1|now rewrite Y2]. }
    destruct (map_value_all S2 delta rs) as (a' & Ea' & V'); [discriminate|auto..].
    exists a, a'. split; [exact Ea|]. split; [exact Ea'|]. rewrite V, V'.
    destruct rs as [|y rs]; [apply Qle_refl|]. cbn [ap_spec]. apply area_mono; [exact H1| |apply R].
    intros x. apply env_least; [apply env_nonneg|]. intros t Ht Hx. destruct (Hto t Ht) as (t' & T1 & T2 & T3).
    eapply Qle_trans; [exact T2|]. apply env_ub; [exact T1|]. now rewrite <- T3.
Qed.
(** A detector whose every sample has precision 1 gets its largest recall. *)
Theorem map_perfect S delta best : 0 < delta -> delta <= 1 -> S <> [] ->
  (forall s, In s S -> fst s == 1 /\ 0 <= snd s <= best) -> (exists s, In s S /\ snd s == best) ->
  exists a, mean_average_precision S delta = Ok a /\ a == best.
Proof.
  intros H1 H2 Hne HS (s0 & Hs0 & Eb).
  assert (Hpos : forall s, In s S -> 0 <= snd s) by (intros s Hs; apply HS, Hs).
  destruct (map_value S delta Hne H1 H2 Hpos) as (rs & a & R & E & V). exists a. split; [exact E|]. rewrite V.
  destruct rs as [|y rs].
  - exfalso. destruct (proj2 (proj2 R 0)) as (x & [] & _). left. reflexivity.
  - cbn [ap_spec]. pose proof (levels_last S rs y Hpos R) as Hl.
    assert (Hb0 : 0 <= best) by (rewrite <- Eb; now apply Hpos).
    assert (Hle : forall x, In x (y :: rs) -> x <= best).
    { intros x Hx. destruct (proj1 (proj2 R x)) as [Ex|(s & A & B)]; [exists x; split; [exact Hx|reflexivity]|lra|].
      rewrite <- B. apply HS, A. }
    assert (Hy : y == best).
    { apply Qle_antisym; [apply Hle; now left|]. destruct (proj2 (proj2 R best)) as (x & X1 & X2); [right; eauto|].
      rewrite <- X2. destruct X1 as [<-|X1]; [apply Qle_refl|]. destruct R as [Rs _]. inversion Rs as [|u v _ Hf]; subst.
      rewrite Forall_forall in Hf. apply Qlt_le_weak, Hf, X1. }
    rewrite (area_const S delta 1 rs y); [rewrite Hl, Hy; ring|].
    intros x Hx. apply Qle_antisym; [apply env_unit; intros s Hs; destruct (HS s Hs) as [E1 _]; rewrite E1; apply Qle_refl|].
    assert (x <= best) by (apply Hle; destruct Hx as [<-|Hx]; [now left|right; revert Hx; clear; induction rs as [|z rs IH]; [intros []|]; cbn [removelast]; destruct rs as [|w rs]; [intros []|]; intros [<-|Hx]; [now left|right; now apply IH]]).
    destruct (HS s0 Hs0) as [E1 _]. rewrite <- E1. apply env_ub; [exact Hs0|now rewrite Eb].
Qed.
