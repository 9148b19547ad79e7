(** Proofs about panoptic labels. *)
From Coq Require Import String Permutation.
From Verif Require Import Base ResultLib ListLib PanopticModel PanopticSpec.
Open Scope Z_scope.

Lemma bind_inv {A B} (r : result A) (k : A -> result B) y : bind r k = Ok y -> exists x, r = Ok x /\ k x = Ok y.
Proof. destruct r; cbn [bind]; [eauto|discriminate]. Qed.
Ltac dbind H x E := apply bind_inv in H; destruct H as (x & E & H).

Lemma nodup_map' {A B} (f : A -> B) l : NoDup l -> (forall x y, In x l -> In y l -> f x = f y -> x = y) -> NoDup (map f l).
Proof.
  intros N. induction N as [|a l Ha N IH]; intros H; cbn [map]; constructor.
  - intros Hi. apply in_map_iff in Hi. destruct Hi as (b & E & Hb). apply Ha. rewrite (H a b); [exact Hb|now left|now right|now symmetry].
  - apply IH. intros x y Hx Hy. apply H; now right.
Qed.
(** ** Encoding *)
Lemma encode_pixel_eq d sem inst : encode_pixel d sem inst = (sem * d + inst) mod 4294967296.
Proof.
  unfold encode_pixel, u32. rewrite Z.add_mod_idemp_l, Z.add_mod_idemp_r by lia.
  rewrite <- (Z.add_mod_idemp_l (_ * d)) by lia. rewrite Z.mul_mod_idemp_l by lia. rewrite Z.add_mod_idemp_l by lia. reflexivity.
Qed.
Lemma encode_exact d sem inst : fits d sem inst -> encode_pixel d sem inst = sem * d + inst.
Proof. intros (H1 & H2 & H3). rewrite encode_pixel_eq. apply Z.mod_small. nia. Qed.
Lemma divmod_eq d sem inst : 0 <= inst < d -> (sem * d + inst) / d = sem /\ (sem * d + inst) mod d = inst.
Proof.
  intros H. rewrite (Z.add_comm (sem * d)). rewrite Z.div_add, Z_mod_plus_full by lia.
  rewrite Z.div_small, Z.mod_small by lia. lia.
Qed.
Theorem round_trip d l : 0 < d -> (forall p, In p l -> fits d (fst p) (snd p)) -> decode d (encode d l) = Ok l.
Proof.
  intros Hd H. unfold decode, encode. destruct (Z.leb_spec d 0); [lia|]. f_equal. rewrite map_map.
  rewrite <- (map_id l) at 2. apply map_ext_in. intros [s i] Hp. specialize (H _ Hp). cbn [fst snd] in *.
  rewrite encode_exact by exact H. destruct (divmod_eq d s i) as [-> ->]; [apply H|reflexivity].
Qed.
Theorem round_trip_back d l sl : (forall p, In p l -> 0 <= p < 4294967296) -> decode d l = Ok sl -> encode d sl = l.
Proof.
  intros H. unfold decode. destruct (Z.leb_spec d 0); [discriminate|]. intros E. apply Ok_inj in E. subst sl. unfold encode. rewrite map_map.
  rewrite <- (map_id l) at 2. apply map_ext_in. intros p Hp. cbn [fst snd]. rewrite encode_pixel_eq.
  rewrite (Z.mul_comm (p / d)), <- Z.div_mod by lia. apply Z.mod_small. now apply H.
Qed.
Theorem at_divisor d sem : 0 < d -> 0 <= sem -> (sem + 2) * d <= 4294967296 -> decode d [encode_pixel d sem d] = Ok [(sem + 1, 0)].
Proof.
  intros Hd Hs H. unfold decode. destruct (Z.leb_spec d 0); [lia|]. cbn [map]. rewrite encode_pixel_eq.
  replace (sem * d + d) with ((sem + 1) * d + 0) by ring. rewrite Z.mod_small by nia.
  destruct (divmod_eq d (sem + 1) 0) as [-> ->]; [lia|reflexivity].
Qed.

(** ** Maxima *)
Lemma fold_max l : forall x, (x <= fold_left Z.max l x) /\ (forall y, In y l -> y <= fold_left Z.max l x) /\ (fold_left Z.max l x = x \/ In (fold_left Z.max l x) l).
Proof.
  induction l as [|y l IH]; intros x; cbn [fold_left]; [split; [lia|split; [intros ? []|now left]]|].
  destruct (IH (Z.max x y)) as (H1 & H2 & H3). split; [lia|]. split.
  - intros z [<-|Hz]; [lia|auto].
  - destruct H3 as [H3|H3]; [|right; now right]. rewrite H3. destruct (Z.max_spec x y) as [[_ ->]|[_ ->]]; [right; now left|now left].
Qed.
Lemma zmax_spec l m : zmax l = Ok m -> In m l /\ forall y, In y l -> y <= m.
Proof.
  unfold zmax. destruct l as [|x l]; [discriminate|]. intros [= <-]. destruct (fold_max l x) as (H1 & H2 & H3). split.
  - destruct H3 as [->|H3]; [now left|now right].
  - intros y [<-|Hy]; auto.
Qed.
Lemma zmax_ok l : l <> [] -> exists m, zmax l = Ok m.
Proof. destruct l; [intros H; now elim H|]. intros _. eexists. reflexivity. Qed.
(** ** Relabelling *)
Lemma filter_lt_split vals x y : x < y -> In x vals -> (List.length (filter (fun v => Z.ltb v x) vals) < List.length (filter (fun v => Z.ltb v y) vals))%nat.
Proof.
  intros Hxy. induction vals as [|v vals IH]; intros Hx; [destruct Hx|]. cbn [filter].
  assert (M : forall l, (List.length (filter (fun v => Z.ltb v x) l) <= List.length (filter (fun v => Z.ltb v y) l))%nat).
  { induction l as [|w l IHl]; [cbn; lia|]. cbn [filter]. destruct (Z.ltb_spec w x), (Z.ltb_spec w y); cbn [List.length]; lia. }
  destruct Hx as [<-|Hx].
  - destruct (Z.ltb_spec v v); [lia|]. destruct (Z.ltb_spec v y); [|lia]. cbn [List.length]. specialize (M vals). lia.
  - specialize (IH Hx). destruct (Z.ltb_spec v x), (Z.ltb_spec v y); cbn [List.length]; lia.
Qed.
Lemma rank_lt vals x y : x < y -> In x vals -> rank vals x < rank vals y.
Proof. intros H Hx. unfold rank. pose proof (filter_lt_split (nodup Z.eq_dec vals) x y H). rewrite nodup_In in *. specialize (H0 Hx). lia. Qed.
Lemma relabel_lt vals x y : x < y -> In x vals -> relabel vals x < relabel vals y.
Proof. intros H Hx. unfold relabel. pose proof (rank_lt vals x y H Hx). destruct (existsb _ _); lia. Qed.
Lemma relabel_inj vals x y : In x vals -> In y vals -> relabel vals x = relabel vals y -> x = y.
Proof.
  intros Hx Hy E. destruct (Z.lt_trichotomy x y) as [H|[H|H]]; [|exact H|].
  - pose proof (relabel_lt vals x y H Hx). lia.
  - pose proof (relabel_lt vals y x H Hy). lia.
Qed.
Lemma relabel_zero vals x : (forall v, In v vals -> 0 <= v) -> In x vals -> (relabel vals x = 0 <-> x = 0).
Proof.
  intros Hn Hx. assert (R0 : rank vals 0 = 0).
  { unfold rank. replace (filter (fun v => v <? 0) (nodup Z.eq_dec vals)) with (@nil Z); [reflexivity|]. symmetry.
    destruct (filter _ _) as [|v l] eqn:E; [reflexivity|]. exfalso. assert (In v (filter (fun v => v <? 0) (nodup Z.eq_dec vals))) by (rewrite E; now left).
    apply filter_In in H. rewrite nodup_In in H. destruct H as [H1 H2]. specialize (Hn v H1). lia. }
  assert (P : 0 <= rank vals x) by (unfold rank; lia).
  unfold relabel. destruct (existsb (Z.eqb 0) vals) eqn:E.
  - apply existsb_exists in E. destruct E as (z & Hz & Ez). apply Z.eqb_eq in Ez. subst z. split; [|now intros ->].
    intros H. specialize (Hn x Hx). destruct (Z.eq_dec x 0); [assumption|]. pose proof (rank_lt vals 0 x ltac:(lia) Hz). lia.
  - split; [lia|]. intros ->. exfalso. assert (existsb (Z.eqb 0) vals = true); [|congruence]. apply existsb_exists. exists 0. split; [exact Hx|reflexivity].
Qed.
Lemma rank_bound vals x : In x vals -> rank vals x < Z.of_nat (List.length (nodup Z.eq_dec vals)).
Proof.
  intros Hx. unfold rank. apply (proj2 (nodup_In Z.eq_dec vals x)) in Hx. revert Hx. generalize (nodup Z.eq_dec vals). intros l Hx.
  induction l as [|v l IH]; [destruct Hx|]. cbn [filter List.length].
  assert (M : (List.length (filter (fun v => Z.ltb v x) l) <= List.length l)%nat) by (clear; induction l as [|w l IH]; [cbn; lia|]; cbn [filter]; destruct (w <? x); cbn [List.length]; lia).
  destruct Hx as [<-|Hx]; [destruct (Z.ltb_spec v v); lia|]. specialize (IH Hx). destruct (v <? x); cbn [List.length]; lia.
Qed.
(** Without 0 the labels become exactly 1..n, n the number of distinct labels. *)
Theorem relabel_consecutive vals : ~ In 0 vals -> forall k, 1 <= k <= Z.of_nat (List.length (nodup Z.eq_dec vals)) <-> exists x, In x vals /\ relabel vals x = k.
Proof.
  intros N0. assert (E : forall x, relabel vals x = rank vals x + 1).
  { intros x. unfold relabel. destruct (existsb (Z.eqb 0) vals) eqn:E; [|reflexivity]. apply existsb_exists in E. destruct E as (z & Hz & Ez). apply Z.eqb_eq in Ez. subst z. tauto. }
  set (n := List.length (nodup Z.eq_dec vals)). intros k. split.
  - intros Hk. set (img := map (relabel vals) (nodup Z.eq_dec vals)).
    assert (ND : NoDup img).
    { apply nodup_map'; [apply NoDup_nodup|]. intros x y Hx Hy. rewrite nodup_In in *. now apply relabel_inj. }
    assert (IN : incl img (map (fun i => Z.of_nat i + 1) (seq 0 n))).
    { intros v Hv. apply in_map_iff in Hv. destruct Hv as (x & <- & Hx). rewrite nodup_In in Hx. rewrite E. pose proof (rank_bound vals x Hx).
      assert (0 <= rank vals x) by (unfold rank; lia). apply in_map_iff. exists (Z.to_nat (rank vals x)). split; [lia|]. apply in_seq. unfold n. lia. }
    assert (IN' : incl (map (fun i => Z.of_nat i + 1) (seq 0 n)) img).
    { apply NoDup_length_incl; [exact ND| |exact IN]. rewrite map_length, seq_length. unfold img. rewrite map_length. unfold n. lia. }
    assert (Hin : In k (map (fun i => Z.of_nat i + 1) (seq 0 n))).
    { apply in_map_iff. exists (Z.to_nat (k - 1)). split; [lia|]. apply in_seq. lia. }
    apply IN' in Hin. apply in_map_iff in Hin. destruct Hin as (x & Hx & Hi). rewrite nodup_In in Hi. eauto.
  - intros (x & Hx & <-). rewrite E. pose proof (rank_bound vals x Hx). assert (0 <= rank vals x) by (unfold rank; lia). unfold n. lia.
Qed.
Lemma relabel_ok_iff vals : relabel_ok vals = Ok tt <-> forall v, In v vals -> 0 <= v.
Proof.
  unfold relabel_ok. destruct (existsb _ vals) eqn:E.
  - split; [discriminate|]. intros H. apply existsb_exists in E. destruct E as (v & Hv & Ev). specialize (H v Hv). lia.
  - split; [|reflexivity]. intros _ v Hv. destruct (Z.ltb_spec v 0) as [L|L]; [|exact L]. exfalso.
    assert (existsb (fun v => v <? 0) vals = true); [|congruence]. apply existsb_exists. exists v. split; [exact Hv|lia].
Qed.
(** ** The id sets *)
Definition sets_ok (m : id_sets) : Prop := NoDup (map fst m) /\ forall s l, In (s, l) m -> l <> [] /\ NoDup l.
Definition has (m : id_sets) (s : string) (g : Z) : Prop := exists l, In (s, l) m /\ In g l.
Lemma nodup_ne (l : list Z) : l <> [] -> nodup Z.eq_dec l <> [].
Proof. intros H E. destruct l as [|x l]; [now elim H|]. assert (In x (nodup Z.eq_dec (x :: l))) by (apply nodup_In; now left). rewrite E in H0. destruct H0. Qed.
Lemma add_ids_keys s ids m x : In x (map fst (add_ids s ids m)) <-> x = s \/ In x (map fst m).
Proof.
  induction m as [|[s' l] m IH]; cbn [add_ids map fst In]; [intuition|]. destruct (String.eqb_spec s s') as [->|N]; cbn [map fst In]; [intuition|]. rewrite IH. intuition.
Qed.
Lemma add_ids_ok s ids m : ids <> [] -> sets_ok m -> sets_ok (add_ids s ids m) /\ forall s' g, has (add_ids s ids m) s' g <-> has m s' g \/ (s' = s /\ In g ids).
Proof.
  intros Hi. unfold has. induction m as [|[s0 l] m IH]; intros [N G]; cbn [add_ids].
  - split.
    + split; [repeat constructor; intros []|]. intros s' l' [[= <- <-]|[]]. split; [now apply nodup_ne|apply NoDup_nodup].
    + intros s' g. split.
      * intros (l & [[= <- <-]|[]] & Hg). rewrite nodup_In in Hg. now right.
      * intros [(l & [] & _)|[-> Hg]]. eexists. split; [now left|now apply nodup_In].
  - inversion N as [|? ? N1 N2]; subst. destruct (IH (conj N2 (fun s l H => G s l (or_intror H)))) as [[I1 I2] I3].
    destruct (String.eqb_spec s s0) as [->|Ns].
    + split.
      * split; [exact N|]. intros s' l' [[= <- <-]|H]; [|apply (G s' l'); now right].
        split; [|apply NoDup_nodup]. apply nodup_ne. destruct (G s0 l (or_introl eq_refl)) as [Hl _]. destruct l; [now elim Hl|discriminate].
      * intros s' g. split.
        -- intros (l' & [[= <- <-]|H] & Hg); [rewrite nodup_In, in_app_iff in Hg; destruct Hg as [Hg|Hg]; [left; exists l; split; [now left|exact Hg]|now right]|].
           left. exists l'. split; [now right|exact Hg].
        -- intros [(l' & [[= <- <-]|H] & Hg)|[-> Hg]].
           ++ eexists. split; [now left|]. apply nodup_In, in_app_iff. now left.
           ++ exists l'. split; [now right|exact Hg].
           ++ eexists. split; [now left|]. apply nodup_In, in_app_iff. now right.
    + split.
      * split.
        -- cbn [map fst]. constructor; [|exact I1]. rewrite add_ids_keys. cbn [fst] in N1. intros [E|E]; [congruence|contradiction].
        -- intros s' l' [[= <- <-]|H]; [apply (G s0 l); now left|exact (I2 s' l' H)].
      * intros s' g. split.
        -- intros (l' & [[= <- <-]|H] & Hg); [left; exists l; split; [now left|exact Hg]|].
           destruct (proj1 (I3 s' g)) as [(l2 & J1 & J2)|J]; [now exists l'|left; exists l2; split; [now right|exact J2]|now right].
        -- intros [(l' & [[= <- <-]|H] & Hg)|J]; [exists l; split; [now left|exact Hg]| |].
           ++ destruct (proj2 (I3 s' g)) as (l2 & J1 & J2); [left; now exists l'|]. exists l2. split; [now right|exact J2].
           ++ destruct (proj2 (I3 s' g)) as (l2 & J1 & J2); [now right|]. exists l2. split; [now right|exact J2].
Qed.
Lemma global_ids_ok l : sets_ok (global_ids l) /\ forall s g, has (global_ids l) s g <-> mentioned l s g.
Proof.
  set (step := fun f m => match sl_map f with [] => m | _ => add_ids (sl_seq f) (map im_global (sl_map f)) m end).
  assert (EQ : global_ids l = fold_right step [] (rev l)) by (rewrite fold_left_rev_right; reflexivity). rewrite EQ.
  assert (R : forall s g, mentioned l s g <-> mentioned (rev l) s g).
  { intros s g. unfold mentioned. split; intros (f & m & Hf & H); exists f, m; (split; [|exact H]); [now apply -> in_rev|now apply in_rev]. }
  enough (E : sets_ok (fold_right step [] (rev l)) /\
     forall s g, has (fold_right step [] (rev l)) s g <-> mentioned (rev l) s g).
  { destruct E as [E1 E2]. split; [exact E1|]. intros s g. now rewrite E2, R. }
  clear R EQ. induction (rev l) as [|f k IH]; cbn [fold_right].
  - split; [split; [constructor|intros ? ? []]|]. intros s g. split; [intros (? & [] & _)|intros (? & ? & [] & _)].
  - destruct IH as [I1 I2]. 
    assert (M : forall s g, mentioned (f :: k) s g <-> mentioned k s g \/ (s = sl_seq f /\ In g (map im_global (sl_map f)))).
    { intros s g. unfold mentioned. rewrite in_map_iff. split.
      - intros (f' & m & [<-|Hf] & E & Hm & Eg); [right; split; [congruence|now exists m]|left; exists f', m; auto].
      - intros [(f' & m & Hf & H)|[-> (m & Eg & Hm)]]; [exists f', m; split; [now right|exact H]|exists f, m; split; [now left|auto]]. }
    unfold step at 1 3. destruct (sl_map f) as [|m0 ms] eqn:Em.
    + split; [exact I1|]. intros s g. rewrite M, I2. cbn [map In]. tauto.
    + destruct (add_ids_ok (sl_seq f) (map im_global (m0 :: ms)) _ ltac:(discriminate) I1) as [A1 A2]. split; [exact A1|].
      intros s g. now rewrite A2, I2, M.
Qed.

(** ** Offsets *)
Lemma offsets_spec m : forall cum r, offsets cum m = Ok r -> map fst r = map fst m /\ (forall s q, (exists l, In (s, l) r /\ In q l) -> has m s (fst q)) /\ (forall s l, In (s, l) r -> exists k, In (s, k) m /\ map fst l = k).
Proof.
  induction m as [|[s l] m IH]; intros cum r H; cbn [offsets] in H.
  - apply Ok_inj in H. subst r. split; [reflexivity|]. split; [intros ? ? (? & [] & _)|intros ? ? []].
  - dbind H mx E. dbind H r' E'. apply Ok_inj in H. subst r. destruct (IH _ _ E') as (I1 & I2 & I3). split; [cbn [map fst]; now rewrite I1|]. split.
    + intros s' q (l' & [[= <- <-]|Hin] & Hq).
      * apply in_map_iff in Hq. destruct Hq as (i & <- & Hi). exists l. split; [now left|exact Hi].
      * destruct (I2 s' q) as (l2 & J1 & J2); [now exists l'|]. exists l2. split; [now right|exact J2].
    + intros s' l' [[= <- <-]|Hin].
      * exists l. split; [now left|]. rewrite map_map. cbn [fst]. apply map_id.
      * destruct (I3 _ _ Hin) as (k & J1 & J2). exists k. split; [now right|exact J2].
Qed.
Lemma offsets_ok m : (forall s l, In (s, l) m -> l <> []) -> forall cum, exists r, offsets cum m = Ok r.
Proof.
  induction m as [|[s l] m IH]; intros H cum; cbn [offsets]; [eauto|].
  destruct (zmax_ok l) as [mx ->]; [apply (H s); now left|]. cbn [bind].
  destruct (IH (fun s l Hi => H s l (or_intror Hi)) (cum + mx)) as [r ->]. cbn [bind]. eauto.
Qed.
(** All values above the running offset, and distinct for distinct objects. *)
Definition value (r : remapping) (s : string) (g v : Z) : Prop := exists l, In (s, l) r /\ In (g, v) l.
Lemma offsets_inj m : (forall s g, has m s g -> 1 <= g) -> forall cum r, offsets cum m = Ok r ->
  (forall s g v, value r s g v -> cum + 1 <= v) /\ (NoDup (map fst m) -> forall s g s' g' v, value r s g v -> value r s' g' v -> s = s' /\ g = g').
Proof.
  unfold value. induction m as [|[s l] m IH]; intros P cum r H; cbn [offsets] in H.
  - apply Ok_inj in H. subst r. split; [intros ? ? ? (? & [] & _)|intros _ ? ? ? ? ? (? & [] & _)].
  - dbind H mx E. dbind H r' E'. apply Ok_inj in H. subst r. destruct (zmax_spec _ _ E) as [M1 M2].
    assert (P' : forall s g, has m s g -> 1 <= g) by (intros s' g (k & K1 & K2); apply (P s'); exists k; split; [now right|exact K2]).
    assert (Pl : forall g, In g l -> 1 <= g) by (intros g Hg; apply (P s); exists l; split; [now left|exact Hg]).
    destruct (IH P' _ _ E') as [I1 I2]. pose proof (Pl _ M1) as Pm. split.
    + intros s' g v (l' & [[= <- <-]|Hin] & Hq).
      * apply in_map_iff in Hq. destruct Hq as (i & [= <- <-] & Hi). specialize (Pl _ Hi). lia.
      * assert (cum + mx + 1 <= v) by (apply (I1 s' g); now exists l'). lia.
    + intros N s1 g1 s2 g2 v (l1 & [[= <- <-]|H1] & Q1) (l2 & [[= <- <-]|H2] & Q2).
      * apply in_map_iff in Q1, Q2. destruct Q1 as (i & [= <- <-] & Hi), Q2 as (j & [= <- Ej] & Hj). split; [reflexivity|lia].
      * apply in_map_iff in Q1. destruct Q1 as (i & [= <- <-] & Hi). specialize (M2 _ Hi). assert (cum + mx + 1 <= i + cum) by (apply (I1 s2 g2); now exists l2). lia.
      * apply in_map_iff in Q2. destruct Q2 as (i & [= <- <-] & Hi). specialize (M2 _ Hi). assert (cum + mx + 1 <= i + cum) by (apply (I1 s1 g1); now exists l1). lia.
      * inversion N; subst. apply (I2 H4 _ _ _ _ v); [now exists l1|now exists l2].
Qed.
(** ** The remapping *)
Definition shape (r : remapping) (m : id_sets) : Prop := map (fun p => (fst p, map fst (snd p))) r = m.
Lemma offsets_shape m : forall cum r, offsets cum m = Ok r -> shape r m.
Proof.
  unfold shape. induction m as [|[s l] m IH]; intros cum r H; cbn [offsets] in H; [apply Ok_inj in H; now subst r|].
  dbind H mx E. dbind H r' E'. apply Ok_inj in H. subst r. cbn [map fst snd]. rewrite (IH _ _ E'), map_map. cbn [fst]. now rewrite map_id.
Qed.
Lemma remap_shape sq l r : remap_global_ids sq l = Ok r -> shape r (global_ids l).
Proof.
  unfold remap_global_ids. intros H. dbind H off E. apply offsets_shape in E. destruct (sq && _).
  - dbind H u E'. apply Ok_inj in H. subst r. unfold shape in *. rewrite <- E. rewrite map_map. apply map_ext. intros [s q]. cbn [fst snd]. now rewrite map_map.
  - apply Ok_inj in H. now subst.
Qed.
Lemma remap_ok sq l : (forall s g, mentioned l s g -> 0 <= g) -> exists r, remap_global_ids sq l = Ok r.
Proof.
  intros P. unfold remap_global_ids. destruct (global_ids_ok l) as [[N G] M]. destruct (offsets_ok (global_ids l)) with (cum := 0) as [off E].
  { intros s k Hk. now apply (G s k). }
  rewrite E. cbn [bind]. destruct (sq && _); [|eauto].
  assert (K : relabel_ok (concat (map (fun p => map snd (snd p)) off)) = Ok tt); [|rewrite K; cbn [bind]; eauto].
  apply relabel_ok_iff. intros v Hv. apply in_concat in Hv. destruct Hv as (k & Hk & Hv). apply in_map_iff in Hk. destruct Hk as ([s q] & <- & Hs).
  apply in_map_iff in Hv. destruct Hv as ([i w] & <- & Hi). cbn [fst snd] in *.
  assert (A : forall m, (forall s g, has m s g -> 0 <= g) -> forall cum r, 0 <= cum -> offsets cum m = Ok r -> forall s q i w, In (s, q) r -> In (i, w) q -> 0 <= w).
  { clear. intros m. induction m as [|[s l] m IH]; intros P cum r C H; cbn [offsets] in H; [apply Ok_inj in H; subst r; intros ? ? ? ? []|].
    dbind H mx E. dbind H r' E'. apply Ok_inj in H. subst r. destruct (zmax_spec _ _ E) as [M1 M2]. intros s' q i w [[= <- <-]|Hin] Hq.
    - apply in_map_iff in Hq. destruct Hq as (j & [= <- <-] & Hj). assert (0 <= j); [|lia]. apply (P s). exists l. split; [now left|exact Hj].
    - apply (IH ltac:(intros s2 g (k & K1 & K2); apply (P s2); exists k; split; [now right|exact K2]) (cum + mx) r'
        ltac:(assert (0 <= mx); [apply (P s); exists l; split; [now left|exact M1]|lia]) E' s' q i w Hin Hq). }
  apply (A (global_ids l) ltac:(intros s2 g Hg; apply (P s2 g), M, Hg) 0 off ltac:(lia) E s q i w Hs Hi).
Qed.
Lemma in_shape r m s l : shape r m -> In (s, l) r -> In (s, map fst l) m.
Proof. intros <- H. apply in_map_iff. exists (s, l). split; [reflexivity|exact H]. Qed.
Lemma lookup_value sq l r s g v : remap_global_ids sq l = Ok r -> lookup r s g = Ok v <-> value r s g v.
Proof.
  intros H. apply remap_shape in H. destruct (global_ids_ok l) as [[N G] M].
  assert (N' : NoDup (map fst r)) by (rewrite <- H in N; rewrite map_map in N; exact N).
  assert (G' : forall s k, In (s, k) r -> NoDup (map fst k)) by (intros s' k Hk; apply (in_shape _ _ _ _ H) in Hk; apply (G s' _ Hk)).
  unfold lookup, value. split.
  - destruct (find _ r) as [[s' q]|] eqn:E; [|discriminate]. apply find_some in E. destruct E as [E1 E2]. cbn [fst snd] in *. apply String.eqb_eq in E2. subst s'.
    destruct (find _ q) as [[g' w]|] eqn:E; [|discriminate]. intros [= <-]. apply find_some in E. destruct E as [E3 E4]. cbn [fst snd] in *. apply Z.eqb_eq in E4. subst g'. eauto.
  - intros (q & Hq & Hv).
    assert (A : forall {A B} (l : list (A * B)) (f : A -> bool) a b, NoDup (map fst l) -> In (a, b) l -> (forall x, f x = true <-> x = a) -> find (fun p => f (fst p)) l = Some (a, b)).
    { clear. intros A B l f a b. induction l as [|[x y] l IH]; intros N Hi Hf; [destruct Hi|]. cbn [find fst]. destruct (f x) eqn:E.
      - apply Hf in E. subst x. destruct Hi as [Hi|Hi]; [now rewrite Hi|]. cbn [map fst] in N. inversion N; subst. exfalso. apply H1. apply in_map_iff. now exists (a, b).
      - destruct Hi as [[= -> ->]|Hi]; [rewrite (proj2 (Hf a) eq_refl) in E; discriminate|]. apply IH; auto. now inversion N. }
    rewrite (A _ _ r (fun x => String.eqb s x) s q N' Hq); [|intros x; rewrite String.eqb_eq; split; congruence]. cbn [snd].
    rewrite (A _ _ q (fun x => x =? g) g v (G' _ _ Hq) Hv); [reflexivity|]. intros x. now rewrite Z.eqb_eq.
Qed.
Lemma value_mentioned sq l r s g : remap_global_ids sq l = Ok r -> (exists v, value r s g v) <-> mentioned l s g.
Proof.
  intros H. apply remap_shape in H. destruct (global_ids_ok l) as [_ M]. rewrite <- M. unfold has, value. split.
  - intros (v & q & Hq & Hv). exists (map fst q). split; [now apply (in_shape r)|]. apply in_map_iff. now exists (g, v).
  - intros (k & Hk & Hg). rewrite <- H in Hk. apply in_map_iff in Hk. destruct Hk as ([s' q] & [= -> <-] & Hq). apply in_map_iff in Hg.
    destruct Hg as ([g' v] & E & Hv). cbn [fst snd] in *. subst g'. now exists v, q.
Qed.
(** No lookup fails. *)
Theorem lookup_total sq l r s g : remap_global_ids sq l = Ok r -> (exists v, lookup r s g = Ok v) <-> mentioned l s g.
Proof.
  intros H. rewrite <- (value_mentioned sq l r s g H). split; intros [v Hv]; exists v; now apply (lookup_value sq l r s g v H).
Qed.
Lemma seq_value l r : remap_global_ids true l = Ok r -> r <> [] -> exists off, offsets 0 (global_ids l) = Ok off /\ relabel_ok (concat (map (fun p => map snd (snd p)) off)) = Ok tt /\ (forall s g v, value r s g v <-> exists w, value off s g w /\ v = relabel (concat (map (fun p => map snd (snd p)) off)) w) /\ (forall w, In w (concat (map (fun p => map snd (snd p)) off)) <-> exists s g, value off s g w).
Proof.
  unfold remap_global_ids. intros H Hr. dbind H off E. exists off. split; [exact E|]. destruct off as [|o off']; [cbn in H; apply Ok_inj in H; now subst r|].
  set (off := o :: off') in *. cbn [andb negb] in H. change (match off with [] => true | _ => false end) with false in H. cbn [negb] in H.
  dbind H u E'. destruct u. split; [exact E'|]. apply Ok_inj in H. subst r. set (all := concat _). split.
  - intros s g v. unfold value. split.
    + intros (q & Hq & Hv). apply in_map_iff in Hq. destruct Hq as ([s' q'] & [= <- <-] & Hq). apply in_map_iff in Hv. destruct Hv as ([g' w] & [= <- <-] & Hw).
      exists w. split; [|reflexivity]. now exists q'.
    + intros (w & (q & Hq & Hw) & ->). exists (map (fun p => (fst p, relabel all (snd p))) q). split; [apply in_map_iff; now exists (s, q)|].
      apply in_map_iff. now exists (g, w).
  - intros w. unfold all, value. rewrite in_concat. split.
    + intros (k & Hk & Hw). apply in_map_iff in Hk. destruct Hk as ([s q] & <- & Hq). apply in_map_iff in Hw. destruct Hw as ([g w'] & <- & Hw). now exists s, g, q.
    + intros (s & g & q & Hq & Hw). exists (map snd q). split; [apply in_map_iff; now exists (s, q)|]. apply in_map_iff. now exists (g, w).
Qed.
(** Distinct objects get distinct instances, above zero. *)
Theorem remap_distinct sq l r : (forall s g, mentioned l s g -> 1 <= g) -> remap_global_ids sq l = Ok r ->
  forall s g v, lookup r s g = Ok v -> 1 <= v /\ forall s' g', lookup r s' g' = Ok v -> s' = s /\ g' = g.
Proof.
  intros P H s g v Hv. pose proof (lookup_value sq l r) as LV. rewrite (LV s g v H) in Hv.
  enough (K : 1 <= v /\ forall s' g', value r s' g' v -> s' = s /\ g' = g).
  { split; [apply K|]. intros s' g' H'. rewrite (LV s' g' v H) in H'. now apply K. }
  destruct (global_ids_ok l) as [[N G] M].
  assert (P' : forall s g, has (global_ids l) s g -> 1 <= g) by (intros s2 g2 Hg; apply (P s2), M, Hg).
  assert (off_case : forall off, offsets 0 (global_ids l) = Ok off -> forall s g v, value off s g v -> 1 <= v /\ forall s' g', value off s' g' v -> s' = s /\ g' = g).
  { intros off E s0 g0 v0 H0. destruct (offsets_inj _ P' _ _ E) as [A B]. split; [specialize (A _ _ _ H0); lia|].
    intros s' g' H'. apply (B N _ _ _ _ v0); assumption. }
  destruct sq.
  - destruct (seq_value l r H) as (off & E & R & V & W). { intros ->. destruct Hv as (? & [] & _). }
    apply V in Hv. destruct Hv as (w & Hw & ->). destruct (off_case _ E _ _ _ Hw) as [O1 O2]. split.
    + set (all := concat _) in *. assert (Hin : In w all) by (apply W; eauto).
      pose proof (proj1 (relabel_ok_iff all) R) as Nn. pose proof (relabel_zero all w Nn Hin) as Z0. assert (0 <= relabel all w); [|lia].
      unfold relabel, rank. destruct (existsb _ _); lia.
    + intros s' g' H'. apply V in H'. destruct H' as (w' & Hw' & E'). apply relabel_inj in E'; [|apply W; eauto|apply W; eauto]. subst w'. now apply O2.
  - unfold remap_global_ids in H. dbind H off E. cbn [andb] in H. apply Ok_inj in H. subst r. apply (off_case _ E _ _ _ Hv).
Qed.
(** Sequential remapping: the instances are exactly 1, ..., n. *)
Theorem remap_consecutive l r : (forall s g, mentioned l s g -> 1 <= g) -> remap_global_ids true l = Ok r -> r <> [] ->
  exists n, 1 <= n /\ forall k, 1 <= k <= n <-> exists s g, lookup r s g = Ok k.
Proof.
  intros P H Hr. destruct (seq_value l r H Hr) as (off & E & R & V & W). set (all := concat _) in *.
  destruct (global_ids_ok l) as [[N G] M].
  assert (P' : forall s g, has (global_ids l) s g -> 1 <= g) by (intros s2 g2 Hg; apply (P s2), M, Hg).
  destruct (offsets_inj _ P' _ _ E) as [A B].
  assert (N0 : ~ In 0 all) by (intros H0; apply W in H0; destruct H0 as (s & g & H0); specialize (A _ _ _ H0); lia).
  assert (C : forall k, 1 <= k <= Z.of_nat (List.length (nodup Z.eq_dec all)) <-> exists s g, lookup r s g = Ok k).
  { intros k. rewrite (relabel_consecutive all N0 k). split.
    - intros (x & Hx & <-). apply W in Hx. destruct Hx as (s & g & Hx). exists s, g. apply (lookup_value true l r _ _ _ H), V. eauto.
    - intros (s & g & Hk). apply (lookup_value true l r _ _ _ H), V in Hk. destruct Hk as (w & Hw & ->). exists w. split; [apply W; eauto|reflexivity]. }
  exists (Z.of_nat (List.length (nodup Z.eq_dec all))). split; [|exact C].
  destruct r as [|[s q] r']; [now elim Hr|]. pose proof (remap_shape _ _ _ H) as S.
  assert (S0 : In (s, map fst q) (global_ids l)) by (apply (in_shape _ _ _ _ S); now left). destruct (G _ _ S0) as [Q1 _].
  destruct q as [|[g v] q']; [now elim Q1|].
  assert (L : lookup ((s, (g, v) :: q') :: r') s g = Ok v) by (apply (lookup_value true l _ _ _ _ H); exists ((g, v) :: q'); split; now left).
  destruct (proj2 (C v)) as [X1 X2]; [eauto|]. lia.
Qed.
(** ** Remapped pixels *)
Lemma cast_id d x : 0 <= x < 65536 -> cast d x = x.
Proof. intros H. unfold cast, u16. destruct (d <=? 65535); [|reflexivity]. now apply Z.mod_small. Qed.
Lemma remap_pixel_app d a b inst : remap_pixel d (a ++ b) inst = fold_left (fun (acc : Z * bool) '(loc, g, tr) => if inst =? loc then (cast d g, tr) else acc) b (remap_pixel d a inst).
Proof. unfold remap_pixel. apply fold_left_app. Qed.
Lemma mapM_app_inv {A B} (f : A -> result B) a b r : mapM f (a ++ b) = Ok r -> exists ra rb, mapM f a = Ok ra /\ mapM f b = Ok rb /\ r = ra ++ rb.
Proof.
  revert r. induction a as [|x a IH]; intros r H; cbn [app mapM] in *; [exists [], r; auto|].
  dbind H y E. dbind H r' E'. apply Ok_inj in H. subst r. destruct (IH _ E') as (ra & rb & Ea & Eb & ->). rewrite E, Ea. cbn [bind]. exists (y :: ra), rb. auto.
Qed.
Definition look (r : remapping) (f : seg_label) (m : id_map) := do g <- lookup r (sl_seq f) (im_global m); Ok (im_local m, g, im_tracked m).
Lemma fold_skip d inst ms : (forall t, In t ms -> fst (fst t) <> inst) -> forall acc, fold_left (fun (acc : Z * bool) '(loc, g, tr) => if inst =? loc then (cast d g, tr) else acc) ms acc = acc.
Proof.
  induction ms as [|[[loc g] tr] ms IH]; intros H acc; cbn [fold_left]; [reflexivity|].
  destruct (Z.eqb_spec inst loc) as [->|_]; [elim (H _ (or_introl eq_refl)); reflexivity|]. apply IH. intros t Ht. apply H. now right.
Qed.
Lemma look_local r f ms out : mapM (look r f) ms = Ok out -> map (fun t => fst (fst t)) out = map im_local ms.
Proof.
  revert out. induction ms as [|m ms IH]; intros out H; cbn [mapM] in H; [apply Ok_inj in H; now subst|].
  dbind H t E. dbind H ts E'. apply Ok_inj in H. subst out. cbn [map]. rewrite (IH _ E'). f_equal. unfold look in E. dbind E g Eg. apply Ok_inj in E. now subst t.
Qed.
Lemma remap_shows r f d ms inst v tr : mapM (look r f) (sl_map f) = Ok ms -> 0 <= inst < 65536 -> shows r f inst v tr -> remap_pixel d ms inst = (cast d v, tr).
Proof.
  intros H Hi [(pre & m & post & E & El & Hp & Hg & ->)|(Hn & -> & ->)].
  - rewrite E in H. apply mapM_app_inv in H. destruct H as (a & b & Ha & Hb & ->). cbn [mapM] in Hb. dbind Hb t Et. dbind Hb ts Ets. apply Ok_inj in Hb. subst b.
    unfold look in Et. rewrite Hg in Et. cbn [bind] in Et. apply Ok_inj in Et. subst t. rewrite remap_pixel_app. cbn [fold_left].
    rewrite El, Z.eqb_refl. apply fold_skip. intros t Ht. apply look_local in Ets. apply (in_map (fun t => fst (fst t))) in Ht. rewrite Ets in Ht. apply in_map_iff in Ht. destruct Ht as (m' & <- & Hm'). now apply Hp.
  - rewrite (cast_id d inst) by lia. unfold remap_pixel. apply fold_skip. intros t Ht. apply look_local in H. apply (in_map (fun t => fst (fst t))) in Ht.
    rewrite H in Ht. apply in_map_iff in Ht. destruct Ht as (m & <- & Hm). now apply Hn.
Qed.
Lemma shows_total r f inst : (forall m, In m (sl_map f) -> exists v, lookup r (sl_seq f) (im_global m) = Ok v) -> exists v tr, shows r f inst v tr.
Proof.
  unfold shows. generalize (sl_map f) as ms. intros ms. induction ms as [|m ms IH] using rev_ind; intros H.
  - exists inst, false. right. split; [intros ? []|auto].
  - destruct (Z.eq_dec (im_local m) inst) as [E|N].
    + destruct (H m) as [v Hv]; [apply in_or_app; right; now left|]. exists v, (im_tracked m). left. exists ms, m, []. split; [reflexivity|]. split; [exact E|]. split; [intros ? []|auto].
    + destruct IH as (v & tr & [(pre & m' & post & E & El & Hp & Hg & Ht)|(Hn & Hv & Ht)]); [intros m' Hm'; apply H, in_or_app; now left| |].
      * exists v, tr. left. exists pre, m', (post ++ [m]). split; [rewrite E, <- app_assoc; reflexivity|]. split; [exact El|]. split; [|auto].
        intros m2 H2. apply in_app_or in H2. destruct H2 as [H2|[<-|[]]]; auto.
      * exists v, tr. right. split; [|auto]. intros m' Hm'. apply in_app_or in Hm'. destruct Hm' as [Hm'|[<-|[]]]; auto.
Qed.
(** ** Whole decoding *)
Lemma mapM_nth {A B} (f : A -> result B) l r : mapM f l = Ok r -> forall i x, nth_error l i = Some x -> exists y, nth_error r i = Some y /\ f x = Ok y.
Proof.
  revert r. induction l as [|a l IH]; intros r H i x Hx; [destruct i; discriminate|]. cbn [mapM] in H. dbind H b E. dbind H r' E'. apply Ok_inj in H. subst r.
  destruct i; cbn [nth_error] in *; [injection Hx as <-; eauto|now apply IH].
Qed.
Lemma nth_map_some {A B} (g : A -> B) l j x : nth_error l j = Some x -> nth_error (map g l) j = Some (g x).
Proof. intros H. now apply map_nth_error. Qed.
Theorem decode_multi_pixels sq new l out D : (forall f, In f l -> good_label f) -> decode_multi true sq new l = Ok (out, D) ->
  exists r, remap_global_ids sq l = Ok r /\ List.length out = List.length l /\
  forall i f, nth_error l i = Some f -> exists ps ts cs, nth_error out i = Some (ps, ts, cs) /\ List.length ps = List.length (sl_pixels f) /\
    forall j p, nth_error (sl_pixels f) j = Some p ->
      exists v tr, shows r f (p mod sl_div f) v tr /\ nth_error ts j = Some tr /\ nth_error ps j = Some (encode_pixel D (p / sl_div f) (cast (sl_div f) v)).
Proof.
  intros G H. assert (H' : (do r <- remap_global_ids sq l; do d <- result_divisor true r new l; do o <- mapM (decode_frame true r d) l; Ok (o, d)) = Ok (out, D))
    by (unfold decode_multi in H; destruct new, l; try discriminate; exact H).
  clear H. dbind H' r Er. dbind H' d Ed. dbind H' o Eo. apply Ok_inj in H'. injection H' as <- <-. exists r. split; [exact Er|]. split; [now apply mapM_length in Eo|].
  intros i f Hf. destruct (mapM_nth _ _ _ Eo i f Hf) as ([[ps ts] cs] & Hn & E). exists ps, ts, cs. split; [exact Hn|].
  unfold decode_frame in E. dbind E sl Es. dbind E ms Em. dbind E mx Ex. destruct (mx >=? d); [discriminate|].
  apply Ok_inj in E. injection E as <- <- <-. unfold decode in Es. destruct (sl_div f <=? 0) eqn:Ez; [discriminate|]. apply Ok_inj in Es. subst sl.
  unfold encode. rewrite !map_map, !map_length. split; [reflexivity|]. intros j p Hp. cbn [fst snd].
  assert (Gf : good_label f) by (apply G; now apply nth_error_In in Hf). destruct Gf as (Gd & Gn & Gp).
  assert (Hpb : 0 <= p < 65536) by (apply Gp; now apply nth_error_In in Hp).
  pose proof (Z.mod_pos_bound p (sl_div f) Gd) as Bm. pose proof (Z.mod_le p (sl_div f) ltac:(lia) Gd) as Bl.
  destruct (shows_total r f (p mod sl_div f)) as (v & tr & S).
  { intros m Hm. apply (lookup_total sq l r _ _ Er). exists f, m. split; [now apply nth_error_In in Hf|auto]. }
  exists v, tr. split; [exact S|].
  pose proof (remap_shows r f (sl_div f) ms (p mod sl_div f) v tr Em ltac:(lia) S) as RP.
  split.
  - rewrite (nth_map_some _ _ _ _ Hp), RP. reflexivity.
  - rewrite (nth_map_some _ _ _ _ Hp), RP. reflexivity.
Qed.
(** Decoding the result gives the semantic class and the intended instance. *)
Theorem pixel_recovered d v D sem : 0 <= v < 65536 -> fits D sem v -> decode D [encode_pixel D sem (cast d v)] = Ok [(sem, v)].
Proof.
  intros Hv F. rewrite cast_id by exact Hv. assert (D0 : 0 < D) by (destruct F; lia).
  apply (round_trip D [(sem, v)] D0). intros p [<-|[]]. exact F.
Qed.
Lemma mapM_in' {A B} (f : A -> result B) l r : mapM f l = Ok r -> forall y, In y r -> exists x, In x l /\ f x = Ok y.
Proof.
  intros H y Hy. apply mapM_inv in H. induction H as [|a b l r Hab H IH]; [destruct Hy|]. destruct Hy as [<-|Hy]; [exists a; split; [now left|exact Hab]|].
  destruct (IH Hy) as (x & Hx & E). exists x. split; [now right|exact E].
Qed.
(** The automatic divisor: at least every remapped instance and at least the first label's. *)
Theorem auto_divisor sq l out D r f0 l' : l = f0 :: l' -> remap_global_ids sq l = Ok r -> decode_multi true sq None l = Ok (out, D) ->
  sl_div f0 <= D /\ (forall s g v, lookup r s g = Ok v -> v <= D) /\ (D = sl_div f0 \/ exists s g, lookup r s g = Ok D).
Proof.
  intros E Hr H. rewrite E in H. unfold decode_multi in H. rewrite <- E in H. rewrite Hr in H. cbn [bind] in H. dbind H d Ed. dbind H o Eo. apply Ok_inj in H. injection H as <- <-.
  unfold result_divisor in Ed. rewrite E in Ed. destruct r as [|p r'] eqn:Er.
  - apply Ok_inj in Ed. subst d. split; [lia|]. split; [|now left]. intros s g v Hv. cbn in Hv. discriminate.
  - rewrite <- Er in *. assert (Ed' : (do mxs <- mapM (fun p => zmax (map snd (snd p))) r; do mx <- zmax mxs; Ok (Z.max (sl_div f0) mx)) = Ok d) by (rewrite Er in *; exact Ed).
    dbind Ed' mxs E1. dbind Ed' mx E2. apply Ok_inj in Ed'. subst d. destruct (zmax_spec _ _ E2) as [M1 M2]. split; [lia|]. split.
    + intros s g v Hv. apply (lookup_value sq l r _ _ _ Hr) in Hv. destruct Hv as (q & Hq & Hv). apply In_nth_error in Hq. destruct Hq as [i Hi].
      destruct (mapM_nth _ _ _ E1 _ _ Hi) as (y & Hy & Ey). cbn [snd] in Ey. apply zmax_spec in Ey. destruct Ey as [_ Ey]. specialize (Ey v (in_map snd _ _ Hv)).
      apply nth_error_In in Hy. specialize (M2 _ Hy). lia.
    + destruct (Z.max_spec (sl_div f0) mx) as [[_ ->]|[_ ->]]; [|now left]. right. destruct (mapM_in' _ _ _ E1 mx M1) as ([s q] & Hq & Eq).
      cbn [snd] in Eq. apply zmax_spec in Eq. destruct Eq as [Eq _]. apply in_map_iff in Eq. destruct Eq as ([g v] & Ev & Hg). cbn [snd] in Ev. subst v.
      exists s, g. apply (lookup_value sq l r _ _ _ Hr). exists q. auto.
Qed.
(** With one divisor and non-negative ids, decoding succeeds. *)
Lemma mapM_all {A B} (f : A -> result B) l : (forall x, In x l -> exists y, f x = Ok y) -> exists r, mapM f l = Ok r.
Proof.
  induction l as [|a l IH]; intros H; cbn [mapM]; [eauto|]. destruct (H a (or_introl eq_refl)) as [y ->]. cbn [bind].
  destruct IH as [r ->]; [intros x Hx; apply H; now right|]. cbn [bind]. eauto.
Qed.
Theorem decode_multi_succeeds sq l d : l <> [] -> (forall f, In f l -> good_label f /\ sl_div f = d) -> (forall s g, mentioned l s g -> 0 <= g) ->
  exists out D, decode_multi true sq None l = Ok (out, D).
Proof.
  intros Hl G P. destruct (remap_ok sq l P) as [r Hr]. destruct l as [|f0 l0] eqn:El; [now elim Hl|]. rewrite <- El in *.
  assert (D0 : exists D, result_divisor true r None l = Ok D /\ d <= D).
  { assert (E0 : sl_div f0 = d) by (apply G; rewrite El; now left). unfold result_divisor. rewrite El. destruct r as [|p r'] eqn:Er; [exists d; split; [congruence|lia]|]. rewrite <- Er in *.
    destruct (mapM_all (fun p => zmax (map snd (snd p))) r) as [mxs Em].
    { intros [s q] Hq. cbn [snd]. apply zmax_ok. intros E. pose proof (in_shape _ _ _ _ (remap_shape _ _ _ Hr) Hq) as I.
      destruct (global_ids_ok l) as [[_ Gg] _]. destruct (Gg _ _ I) as [Ne _]. destruct q; [now elim Ne|discriminate]. }
    assert (E1 : exists mx, zmax mxs = Ok mx) by (apply zmax_ok; intros ->; apply mapM_length in Em; rewrite Er in Em; discriminate Em).
    destruct E1 as [mx E1]. exists (Z.max (sl_div f0) mx). split; [|lia]. rewrite Em. cbn [bind]. rewrite E1. reflexivity. }
  destruct D0 as (D & ED & Hd). destruct (mapM_all (decode_frame true r D) l) as [out Eo].
  { intros f Hf. destruct (G f Hf) as [(G1 & G2 & G3) G4]. unfold decode_frame, decode. destruct (Z.leb_spec (sl_div f) 0); [lia|]. cbn [bind].
    destruct (mapM_all (look r f) (sl_map f)) as [ms Em].
    { intros m Hm. unfold look. destruct (proj2 (lookup_total sq l r (sl_seq f) (im_global m) Hr)) as [v ->]; [exists f, m; auto|]. cbn [bind]. eauto. }
    change (mapM _ (sl_map f)) with (mapM (look r f) (sl_map f)). rewrite Em. cbn [bind].
    destruct (zmax_ok (map snd (map (fun p => (p / sl_div f, p mod sl_div f)) (sl_pixels f)))) as [mx Ex]; [destruct (sl_pixels f); [now elim G2|discriminate]|].
    rewrite Ex. cbn [bind]. apply zmax_spec in Ex. destruct Ex as [Ex _]. rewrite map_map in Ex. apply in_map_iff in Ex. destruct Ex as (p & <- & Hp). cbn [snd].
    pose proof (Z.mod_pos_bound p (sl_div f) G1). destruct (p mod sl_div f >=? D) eqn:Eg; [lia|]. eauto. }
  exists out, D. unfold decode_multi. rewrite El. rewrite <- El. rewrite Hr. cbn [bind]. rewrite ED. cbn [bind]. rewrite Eo. reflexivity.
Qed.
(** ** Saving a label and decoding it again *)
Lemma insertZ_in x y l : In y (insertZ x l) <-> y = x \/ In y l.
Proof. induction l as [|z l IH]; cbn [insertZ In]; [intuition|]. destruct (x <=? z); cbn [In]; [intuition|]. rewrite IH. intuition. Qed.
Lemma sortZ_in y l : In y (sortZ l) <-> In y l.
Proof. induction l as [|x l IH]; cbn [sortZ fold_right In]; [tauto|]. rewrite insertZ_in. fold (sortZ l). rewrite IH. intuition. Qed.
Theorem save_spec d new s label f : (forall p, In p label -> 0 <= p /\ (p / d + 1) * sl_div f <= 4294967296) -> save_label d new s label = Ok f ->
  sl_seq f = s /\ new <= sl_div f /\ 0 < d /\ label <> [] /\ 0 < sl_div f /\ List.length (sl_pixels f) = List.length label /\
  (forall j p, nth_error label j = Some p -> exists q, nth_error (sl_pixels f) j = Some q /\ 0 <= q < 65535 /\ q / sl_div f = p / d /\
     ((p mod d = 0 /\ q mod sl_div f = 0 /\ forall m, In m (sl_map f) -> im_local m <> 0) \/
      (p mod d <> 0 /\ (exists m, In m (sl_map f) /\ im_local m = q mod sl_div f) /\ forall m, In m (sl_map f) -> im_local m = q mod sl_div f -> im_global m = p mod d))).
Proof.
  intros P H. unfold save_label in H. dbind H sl Es. dbind H u Eu. destruct u. dbind H mx Ex. dbind H top Et.
  destruct (top >=? 65535) eqn:Eg; [discriminate|]. apply Ok_inj in H. subst f. cbn [sl_seq sl_div sl_pixels sl_map] in *.
  unfold decode in Es. destruct (Z.leb_spec d 0) as [|D0]; [discriminate|]. apply Ok_inj in Es. subst sl.
  set (insts := map snd (map (fun p => (p / d, p mod d)) label)) in *. set (D := Z.max new (mx + 1)) in *.
  assert (Hin : forall p, In p label -> In (p mod d) insts) by (intros p Hp; unfold insts; rewrite map_map; apply in_map_iff; now exists p).
  assert (Hnn : forall v, In v insts -> 0 <= v) by (now apply relabel_ok_iff).
  destruct (zmax_spec _ _ Ex) as [X1 X2]. assert (Rn : forall x, 0 <= relabel insts x) by (intros x; unfold relabel, rank; destruct (existsb _ _); lia).
  assert (Mx : 0 <= mx) by (apply in_map_iff in X1; destruct X1 as (x & <- & _); apply Rn).
  assert (Rl : forall x, In x insts -> relabel insts x <= mx) by (intros x Hx; apply X2, in_map, Hx).
  split; [reflexivity|]. split; [lia|]. split; [exact D0|]. split; [intros ->; discriminate Ex|]. split; [lia|]. split; [unfold encode; now rewrite !map_length|].
  intros j p Hp. assert (HpI : In p label) by (now apply nth_error_In in Hp). destruct (P p HpI) as [P0 P1]. specialize (Hin p HpI).
  assert (F : fits D (p / d) (relabel insts (p mod d))) by (split; [apply Z.div_pos; lia|]; split; [specialize (Rn (p mod d)); specialize (Rl _ Hin); lia|exact P1]).
  pose proof (encode_exact _ _ _ F) as Ee. destruct (divmod_eq D (p / d) (relabel insts (p mod d))) as [Q1 Q2]; [apply F|].
  assert (Tp : encode_pixel D (p / d) (relabel insts (p mod d)) <= top).
  { destruct (zmax_spec _ _ Et) as [_ T2]. apply T2. unfold encode. rewrite !map_map. cbn [fst snd]. apply in_map_iff. now exists p. }
  assert (Z0 : 0 <= encode_pixel D (p / d) (relabel insts (p mod d))) by (rewrite encode_pixel_eq; apply Z.mod_pos_bound; lia).
  exists (encode_pixel D (p / d) (relabel insts (p mod d))). split.
  { unfold encode. rewrite !map_map. cbn [fst snd]. rewrite (nth_map_some _ _ _ _ Hp). f_equal. unfold u16. apply Z.mod_small. lia. }
  split; [lia|]. rewrite Ee. split; [exact Q1|]. rewrite Q2. pose proof (relabel_zero insts (p mod d) Hnn Hin) as RZ.
  assert (MM : forall m, In m (map (fun o => {| im_local := relabel insts o; im_global := o; im_tracked := false |}) (filter (fun o => negb ((o =? 0) || (relabel insts o =? 0))) (sortZ (nodup Z.eq_dec insts)))) <->
     exists o, In o insts /\ o <> 0 /\ relabel insts o <> 0 /\ m = {| im_local := relabel insts o; im_global := o; im_tracked := false |}).
  { intros m. rewrite in_map_iff. split.
    - intros (o & <- & Ho). apply filter_In in Ho. destruct Ho as [Ho Hb]. rewrite sortZ_in, nodup_In in Ho. exists o. split; [exact Ho|].
      apply Bool.negb_true_iff, Bool.orb_false_iff in Hb. destruct Hb as [B1 B2]. apply Z.eqb_neq in B1, B2. auto.
    - intros (o & Ho & N1 & N2 & ->). exists o. split; [reflexivity|]. apply filter_In. split; [rewrite sortZ_in, nodup_In; exact Ho|].
      apply Bool.negb_true_iff, Bool.orb_false_iff. split; now apply Z.eqb_neq. }
  destruct (Z.eq_dec (p mod d) 0) as [E|N].
  - left. split; [exact E|]. split; [now apply RZ|]. intros m Hm. apply MM in Hm. destruct Hm as (o & _ & _ & N2 & ->). exact N2.
  - right. split; [exact N|]. split.
    + eexists. split; [apply MM; exists (p mod d); split; [exact Hin|]; split; [exact N|]; split; [tauto|reflexivity]|reflexivity].
    + intros m Hm El. apply MM in Hm. destruct Hm as (o & Ho & _ & _ & ->). cbn [im_local im_global] in *. now apply (relabel_inj insts).
Qed.
Theorem save_then_decode d new s label f D out : (forall p, In p label -> 0 <= p /\ (p / d + 1) * sl_div f <= 4294967296) -> save_label d new s label = Ok f ->
  (forall p, In p label -> p mod d < D /\ p mod d < 65536 /\ (p / d + 1) * D <= 4294967296) ->
  decode_multi true false (Some D) [f] = Ok ([out], D) -> decode D (fst (fst out)) = decode d label.
Proof.
  intros P Hs B H. destruct (save_spec d new s label f P Hs) as (Sq & Sn & D0 & Ln & Sd & Sl & Sp).
  assert (G : good_label f).
  { split; [exact Sd|]. split; [intros E; rewrite E in Sl; destruct label; [now elim Ln|discriminate]|]. intros q Hq. apply In_nth_error in Hq. destruct Hq as [j Hj].
    destruct (nth_error label j) as [p|] eqn:Ep; [|apply nth_error_None in Ep; assert (nth_error (sl_pixels f) j <> None) by congruence; apply nth_error_Some in H0; lia].
    destruct (Sp j p Ep) as (q' & E' & Bq & _). rewrite Hj in E'. injection E' as ->. lia. }
  destruct (decode_multi_pixels false (Some D) [f] [out] D) as (r & Er & _ & Px); [intros ? [<-|[]]; exact G|exact H|].
  destruct (Px 0%nat f eq_refl) as (ps & ts & cs & E0 & Lps & Pj). cbn [nth_error] in E0. injection E0 as ->. cbn [fst].
  assert (Lk : forall g v, lookup r s g = Ok v -> v = g).
  { intros g v Hv. apply (lookup_value false [f] r _ _ _ Er) in Hv. unfold remap_global_ids in Er. dbind Er off Eo. cbn [andb] in Er. apply Ok_inj in Er. subst r.
    unfold global_ids in Eo. cbn [fold_left] in Eo. destruct (sl_map f) as [|m ms]; [cbn [offsets] in Eo; apply Ok_inj in Eo; subst off; destruct Hv as (? & [] & _)|].
    cbn [add_ids offsets] in Eo. dbind Eo mx Ex. cbn [bind] in Eo. apply Ok_inj in Eo. subst off. destruct Hv as (q & [[= <- <-]|[]] & Hq). apply in_map_iff in Hq. destruct Hq as (i & [= <- <-] & _). lia. }
  assert (Dp : 0 < D). { destruct label as [|p label']; [now elim Ln|]. destruct (B p (or_introl eq_refl)) as (B1 & _). pose proof (Z.mod_pos_bound p d D0). lia. }
  assert (E : ps = encode D (map (fun p => (p / d, p mod d)) label)).
  { unfold encode. rewrite map_map. cbn [fst snd]. rewrite Sl in Lps. apply nth_ext with (d := 0) (d' := 0); [now rewrite map_length|]. intros j Hj.
    destruct (nth_error label j) as [p|] eqn:Ep; [|apply nth_error_None in Ep; lia]. destruct (Sp j p Ep) as (q & Eq & Bq & Qs & Qi).
    destruct (Pj j q Eq) as (v & tr & Sh & _ & Ev). apply nth_error_nth with (d := 0) in Ev. rewrite Ev. rewrite (nth_error_nth _ _ 0 (nth_map_some _ _ _ _ Ep)). rewrite Qs. f_equal.
    assert (v = p mod d) as ->; [|apply cast_id; apply nth_error_In in Ep; destruct (B p Ep) as (_ & B2 & _); pose proof (Z.mod_pos_bound p d D0); lia].
    destruct Sh as [(pre & m & post & Em & El & _ & Hg & _)|(Hn & -> & _)]; destruct Qi as [(Q1 & Q2 & Q3)|(Q1 & (m' & Q2 & Q2') & Q3)].
    - exfalso. apply (Q3 m); [rewrite Em; apply in_or_app; right; now left|congruence].
    - rewrite Sq in Hg. apply Lk in Hg. rewrite Hg. apply Q3; [rewrite Em; apply in_or_app; right; now left|exact El].
    - congruence.
    - exfalso. now apply (Hn m'). }
  rewrite E, (round_trip D _ Dp); [|].
  - unfold decode. destruct (Z.leb_spec d 0); [lia|reflexivity].
  - intros q Hq. apply in_map_iff in Hq. destruct Hq as (p & <- & Hp). cbn [fst snd]. destruct (B p Hp) as (B1 & _ & B3). destruct (P p Hp) as [P0 _].
    split; [apply Z.div_pos; lia|]. split; [pose proof (Z.mod_pos_bound p d D0); lia|exact B3].
Qed.
(** ** Loading *)
Lemma load_loop_spec {F} k (frames : list (F * option string)) : forall acc seq r, load_loop k frames acc seq = r ->
  exists n, fst r = acc ++ map fst (firstn n (labelled frames)) /\
    (snd r = match seq with Some s => Some s | None => match labelled frames with [] => None | (_, s) :: _ => Some s end end) /\
    (forall i f s, nth_error (labelled frames) i = Some (f, s) -> (i < n)%nat -> (S i < n)%nat -> Some s = snd r) /\
    ((n <= 1 \/ List.length acc + n <= k)%nat) /\
    ((n < List.length (labelled frames))%nat -> (exists m f s, n = S m /\ nth_error (labelled frames) m = Some (f, s) /\ Some s <> snd r) \/ (1 <= n /\ k <= List.length acc + n)%nat).
Proof.
  induction frames as [|[f [s|]] frames IH]; intros acc seq r H; cbn [load_loop] in H.
  - subst r. exists 0%nat. cbn [labelled map concat firstn fst snd]. rewrite app_nil_r. split; [reflexivity|]. split; [now destruct seq|].
    split; [intros; lia|]. split; [lia|]. cbn. lia.
  - change (labelled ((f, Some s) :: frames)) with ((f, s) :: labelled frames). rewrite app_length in H. cbn [List.length] in H.
    set (seq' := match seq with None => s | Some s' => s' end) in *.
    assert (SQ : Some seq' = match seq with Some s0 => Some s0 | None => Some s end) by (unfold seq'; now destruct seq).
    destruct (negb (String.eqb s seq') || Nat.leb k (List.length acc + 1)) eqn:E.
    + subst r. cbn [fst snd]. exists 1%nat. cbn [firstn map fst]. split; [reflexivity|]. split; [exact SQ|]. split; [intros; lia|]. split; [lia|].
      intros _. apply Bool.orb_true_iff in E. destruct E as [E|E].
      * left. exists 0%nat, f, s. split; [reflexivity|]. split; [reflexivity|]. intros H0. injection H0 as H0. rewrite (proj2 (String.eqb_eq s seq') H0) in E. discriminate.
      * right. apply Nat.leb_le in E. lia.
    + apply Bool.orb_false_iff in E. destruct E as [E1 E2]. apply Bool.negb_false_iff, String.eqb_eq in E1. apply Nat.leb_gt in E2.
      destruct (IH _ _ _ H) as (n & R1 & R2 & R3 & R4 & R5). exists (S n). rewrite app_length in R4, R5. cbn [List.length] in R4, R5.
      split; [rewrite R1; cbn [firstn map fst]; now rewrite <- app_assoc|]. split; [now rewrite R2|]. split; [|split; [lia|]].
      * intros i g s0 Hi I1 I2. destruct i; cbn [nth_error] in Hi; [injection Hi as <- <-; rewrite R2; now f_equal|]. apply (R3 i g s0 Hi); lia.
      * intros Hn. cbn [List.length] in Hn. destruct (R5 ltac:(lia)) as [(m & g & s0 & -> & Hm & Hs)|R]; [left; exists (S m), g, s0; auto|right; lia].
  - apply IH in H. exact H.
Qed.
Theorem load_frames_spec {F} k (frames : list (F * option string)) : exists n,
  fst (load_frames k frames) = map fst (firstn n (labelled frames)) /\
  snd (load_frames k frames) = match labelled frames with [] => None | (_, s) :: _ => Some s end /\
  (n <= 1 \/ n <= k)%nat /\
  (forall i f s, nth_error (labelled frames) i = Some (f, s) -> (S i < n)%nat -> Some s = snd (load_frames k frames)) /\
  ((n < List.length (labelled frames))%nat -> (exists m f s, n = S m /\ nth_error (labelled frames) m = Some (f, s) /\ Some s <> snd (load_frames k frames)) \/ (1 <= n /\ k <= n)%nat).
Proof.
  destruct (load_loop_spec k frames [] None _ eq_refl) as (n & R1 & R2 & R3 & R4 & R5). exists n. split; [exact R1|]. split; [exact R2|]. split; [exact R4|]. split; [|exact R5].
  intros i f s Hi I. apply (R3 i f s Hi); lia.
Qed.
(** ** Evaluation *)
Theorem augment_spec d y k : 0 < d -> List.length y = List.length k -> List.length (augment d y k) = List.length y /\
  forall j a b, nth_error y j = Some a -> nth_error k j = Some b -> exists c, nth_error (augment d y k) j = Some c /\ c / d = a / d /\ c mod d = if b =? 0 then 0 else a mod d.
Proof.
  intros D L. unfold augment. split; [rewrite map_length, combine_length; lia|]. intros j a b Ha Hb.
  assert (C : nth_error (combine y k) j = Some (a, b)).
  { clear L. revert k j Ha Hb. induction y as [|y0 y IH]; intros k j Ha Hb; [destruct j; discriminate|]. destruct k as [|k0 k]; [destruct j; discriminate|].
    destruct j; cbn [nth_error combine] in *; [congruence|now apply IH]. }
  rewrite (nth_map_some _ _ _ _ C). cbn [fst snd]. eexists. split; [reflexivity|]. destruct (b =? 0); [|auto]. now rewrite Z.div_mul, Z.mod_mul by lia.
Qed.
Lemma combine_nth_error {A B} (a : list A) (b : list B) i x y : nth_error a i = Some x -> nth_error b i = Some y -> nth_error (combine a b) i = Some (x, y).
Proof. revert b i. induction a as [|a0 a IH]; intros b i; destruct b, i; cbn; try discriminate; [congruence|apply IH]. Qed.
Theorem updates_spec d truth pred cov trk :
  (forall r, metric_updates d truth pred cov trk = Ok r -> List.length r = List.length truth /\
     forall i t y c k, nth_error truth i = Some t -> nth_error pred i = Some y -> nth_error cov i = Some c -> nth_error trk i = Some k ->
       nth_error r i = Some (augment d t k, y, map weight c)) /\
  (is_ok (metric_updates d truth pred cov trk) = true <-> List.length pred = List.length truth /\ List.length cov = List.length truth /\ List.length trk = List.length truth).
Proof.
  unfold metric_updates. destruct (Nat.eqb_spec (List.length truth) (List.length pred)) as [E1|N1]; cbn [negb]; [|split; [discriminate|split; [discriminate|lia]]].
  destruct (Nat.eqb_spec (List.length truth) (List.length cov)) as [E2|N2]; cbn [negb]; [|split; [discriminate|split; [discriminate|lia]]].
  destruct (Nat.eqb_spec (List.length truth) (List.length trk)) as [E3|N3]; cbn [negb]; [|split; [discriminate|split; [discriminate|lia]]].
  split; [|split; [lia|reflexivity]]. intros r H. apply Ok_inj in H. subst r. split; [rewrite map_length, !combine_length; lia|].
  intros i t y c k Ht Hy Hc Hk. rewrite (nth_map_some _ _ i ((t, y), (c, k))); [reflexivity|]. now repeat apply combine_nth_error.
Qed.
(** ** The automatic divisor is too small exactly when an instance reaches the first label's divisor *)
Theorem auto_divisor_iff sq l out D r f0 l' : l = f0 :: l' -> remap_global_ids sq l = Ok r -> decode_multi true sq None l = Ok (out, D) ->
  (forall s g v, lookup r s g = Ok v -> v <= D) /\
  ((forall s g v, lookup r s g = Ok v -> v < D) <-> (forall s g v, lookup r s g = Ok v -> v < sl_div f0)).
Proof.
  intros E Hr H. destruct (auto_divisor sq l out D r f0 l' E Hr H) as (A & B & C). split; [exact B|]. split; intros K s g v Hv.
  - destruct C as [->|(s' & g' & C)]; [eauto|]. specialize (K _ _ _ C). lia.
  - specialize (K _ _ _ Hv). lia.
Qed.
