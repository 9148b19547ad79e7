(** Merging equals summing. *)
From Coq Require Import Permutation.
From Verif Require Import Base ResultLib ListLib HungarianSpec MotSpec MotProofs MergeModel MergeSpec.
Open Scope Z_scope.

Lemma nth_error_combine {A B} (l : list A) : forall (l' : list B) i,
  nth_error (combine l l') i =
  match nth_error l i, nth_error l' i with Some a, Some b => Some (a, b) | _, _ => None end.
Proof.
  induction l as [|a l IH]; intros l' i; cbn [combine].
  - destruct i; reflexivity.
  - destruct l' as [|b l'].
    + destruct i; cbn [nth_error]; [reflexivity|]. destruct (nth_error l i); reflexivity.
    + destruct i as [|i]; cbn [nth_error]; [reflexivity|]. apply IH.
Qed.

Lemma nth_error_map' {A B} (f : A -> B) l i :
  nth_error (map f l) i = match nth_error l i with Some a => Some (f a) | None => None end.
Proof. revert i. induction l as [|a l IH]; intros [|i]; cbn [map nth_error]; auto. Qed.

Lemma nth_error_ext {A} (l : list A) : forall l', (forall i, nth_error l i = nth_error l' i) -> l = l'.
Proof.
  induction l as [|a l IH]; intros [|b l'] H.
  - reflexivity.
  - specialize (H 0%nat). discriminate.
  - specialize (H 0%nat). discriminate.
  - f_equal; [specialize (H 0%nat); cbn in H; congruence|]. apply IH. intros i. exact (H (S i)).
Qed.

Lemma breakdown_eqb_refl b : breakdown_eqb b b = true.
Proof. destruct b as [[a b] c]. cbn. now rewrite !Z.eqb_refl. Qed.

Definition isS {A} (o : option A) : Prop := o <> None.

Section Gen.
Context {M : Type}.
Variable cut : M -> option Q.
Variable op : M -> M -> result M.
Variable f : M -> M -> M.
Hypothesis Hop : forall a b, cut a = cut b -> isS (cut a) -> op a b = Ok (f a b).
Hypothesis Hcut : forall a b, cut a = cut b -> cut (f a b) = cut a.

Definition all_set (S : list (breakdown * list (option Q))) : Prop :=
  Forall (fun p => Forall isS (snd p)) S.
Definition madd (a b : measurements M) : measurements M :=
  {| bd := bd a; ms := map (fun q => f (fst q) (snd q)) (combine (ms a) (ms b)) |}.
Definition vadd (v v' : list (measurements M)) : list (measurements M) :=
  map (fun p => madd (fst p) (snd p)) (combine v v').

Lemma zip_ms l : forall l', map cut l = map cut l' -> Forall isS (map cut l) ->
  zipM op l l' = Ok (map (fun q => f (fst q) (snd q)) (combine l l')).
Proof.
  induction l as [|a l IH]; intros [|b l'] E Hs; cbn [map] in E; try discriminate; [reflexivity|].
  injection E as E1 E2. cbn [map] in Hs. inversion Hs as [|x y H1 H2]; subst. cbn [zipM combine map fst snd].
  rewrite (Hop a b E1 H1). cbn [bind]. rewrite IH by assumption. reflexivity.
Qed.
Lemma map_cut l : forall l', map cut l = map cut l' ->
  map cut (map (fun q => f (fst q) (snd q)) (combine l l')) = map cut l.
Proof.
  induction l as [|a l IH]; intros [|b l'] E; cbn [map] in E; try discriminate; [reflexivity|].
  injection E as E1 E2. cbn [combine map fst snd]. rewrite (Hcut a b E1), IH by exact E2. reflexivity.
Qed.
Lemma merge_same a b : bd a = bd b -> map cut (ms a) = map cut (ms b) -> Forall isS (map cut (ms a)) ->
  merge_measurements op a b = Ok (madd a b).
Proof.
  intros E1 E2 Hs. unfold merge_measurements, madd.
  destruct (ms a) as [|x l] eqn:Ea.
  - destruct b as [bb lb]. cbn [bd ms] in *. destruct lb; [|discriminate E2]. rewrite E1. reflexivity.
  - rewrite <- Ea in *. assert (L : length (ms a) = length (ms b)) by (rewrite <- (map_length cut), E2; apply map_length).
    rewrite L, Nat.eqb_refl, E1, breakdown_eqb_refl. cbn [negb].
    rewrite zip_ms by assumption. reflexivity.
Qed.
Lemma zip_vec v : forall v', shape cut v = shape cut v' -> all_set (shape cut v) ->
  zipM (merge_measurements op) v v' = Ok (vadd v v') /\ shape cut (vadd v v') = shape cut v.
Proof.
  induction v as [|a v IH]; intros [|b v'] E Hs; cbn [shape map] in E; try discriminate; [split; reflexivity|].
  injection E as E1 E2 E3. unfold all_set in Hs. cbn [shape map] in Hs. inversion Hs as [|x y H1 H2]; subst. cbn [snd] in H1.
  destruct (IH v' E3 H2) as [I1 I2].
  cbn [zipM]. rewrite (merge_same a b E1 E2 H1). cbn [bind]. rewrite I1. split; [reflexivity|].
  unfold vadd, shape in *. cbn [combine map fst snd madd bd ms]. rewrite I2. f_equal. f_equal. apply map_cut, E2.
Qed.
Lemma cell_vadd v v' i j : cell (vadd v v') i j =
  match cell v i j, cell v' i j with Some a, Some b => Some (f a b) | _, _ => None end.
Proof.
  unfold cell, vadd. rewrite nth_error_map', nth_error_combine.
  destruct (nth_error v i) as [a|]; [|reflexivity]. destruct (nth_error v' i) as [b|].
  - cbn [fst snd madd ms]. rewrite nth_error_map', nth_error_combine.
    destruct (nth_error (ms a) j) as [x|]; [|reflexivity]. destruct (nth_error (ms b) j); reflexivity.
  - destruct (nth_error (ms a) j); reflexivity.
Qed.
Lemma shape_cell v v' i j : shape cut v = shape cut v' ->
  match cell v i j, cell v' i j with
  | Some a, Some b => cut a = cut b | None, None => True | _, _ => False end.
Proof.
  intros E. assert (Ei : nth_error (shape cut v) i = nth_error (shape cut v') i) by now rewrite E.
  unfold shape in Ei. rewrite !nth_error_map' in Ei. unfold cell.
  destruct (nth_error v i) as [a|], (nth_error v' i) as [b|]; try discriminate; [|trivial].
  injection Ei as _ Ej. assert (Ek : nth_error (map cut (ms a)) j = nth_error (map cut (ms b)) j) by now rewrite Ej.
  rewrite !nth_error_map' in Ek.
  destruct (nth_error (ms a) j), (nth_error (ms b) j); try discriminate; [|trivial]. congruence.
Qed.
Lemma vec_ext v v' : shape cut v = shape cut v' -> (forall i j, cell v i j = cell v' i j) -> v = v'.
Proof.
  intros E Hc. apply nth_error_ext. intros i.
  assert (Ei : nth_error (shape cut v) i = nth_error (shape cut v') i) by now rewrite E.
  unfold shape in Ei. rewrite !nth_error_map' in Ei.
  destruct (nth_error v i) as [a|] eqn:Ea, (nth_error v' i) as [b|] eqn:Eb; try discriminate; [|reflexivity].
  f_equal. injection Ei as E1 E2. destruct a as [ba la], b as [bb lb]. cbn [bd ms] in *. subst bb. f_equal.
  apply nth_error_ext. intros j. specialize (Hc i j). unfold cell in Hc. rewrite Ea, Eb in Hc. exact Hc.
Qed.

Lemma fold_vec mv L : forall acc,
  (forall a b, a <> [] -> b <> [] -> mv a b = zipM (merge_measurements op) a b) ->
  acc <> [] -> all_set (shape cut acc) -> (forall v, In v L -> shape cut v = shape cut acc) ->
  foldM mv L acc = Ok (fold_left vadd L acc) /\ shape cut (fold_left vadd L acc) = shape cut acc.
Proof.
  induction L as [|v L IH]; intros acc Hmv Hne Hs HL; cbn [foldM fold_left]; [split; reflexivity|].
  assert (Ev : shape cut acc = shape cut v) by (symmetry; apply HL; now left).
  assert (Hvne : v <> []) by (intros ->; destruct acc; [contradiction|discriminate Ev]).
  destruct (zip_vec acc v Ev Hs) as [Z1 Z2]. rewrite Hmv by assumption. rewrite Z1. cbn [bind].
  destruct (IH (vadd acc v)) as [I1 I2].
  - exact Hmv.
  - intros E. rewrite E in Z2. destruct acc; [contradiction|discriminate Z2].
  - now rewrite Z2.
  - intros w Hw. rewrite Z2. apply HL. now right.
  - rewrite I1, I2. auto.
Qed.

Lemma cell_fold L i j : forall acc a,
  cell acc i j = Some a -> (forall v, In v L -> shape cut v = shape cut acc) -> all_set (shape cut acc) ->
  exists bs, Forall2 (fun v b => cell v i j = Some b) L bs /\ cell (fold_left vadd L acc) i j = Some (fold_left f bs a).
Proof.
  induction L as [|v L IH]; intros acc a Ea HL Hs; cbn [fold_left].
  - exists []. split; [constructor|exact Ea].
  - assert (Ev : shape cut acc = shape cut v) by (symmetry; apply HL; now left).
    pose proof (shape_cell acc v i j Ev) as Hc. rewrite Ea in Hc.
    destruct (cell v i j) as [b|] eqn:Eb; [|contradiction].
    destruct (zip_vec acc v Ev Hs) as [_ Z2].
    destruct (IH (vadd acc v) (f a b)) as (bs & F & E).
    + rewrite cell_vadd, Ea, Eb. reflexivity.
    + intros w Hw. rewrite Z2. apply HL. now right.
    + now rewrite Z2.
    + exists (b :: bs). split; [now constructor|exact E].
Qed.
Lemma cell_fold_none L i j : forall acc,
  cell acc i j = None -> (forall v, In v L -> shape cut v = shape cut acc) -> all_set (shape cut acc) ->
  cell (fold_left vadd L acc) i j = None.
Proof.
  induction L as [|v L IH]; intros acc Ea HL Hs; cbn [fold_left]; [exact Ea|].
  assert (Ev : shape cut acc = shape cut v) by (symmetry; apply HL; now left).
  destruct (zip_vec acc v Ev Hs) as [_ Z2]. apply IH.
  - now rewrite cell_vadd, Ea.
  - intros w Hw. rewrite Z2. apply HL. now right.
  - now rewrite Z2.
Qed.
Lemma Forall2_cells L i j (a0 : M) : forall bs, Forall2 (fun v b => cell v i j = Some b) L bs ->
  bs = map (fun v => match cell v i j with Some b => b | None => a0 end) L.
Proof. induction 1 as [|v b L bs H _ IH]; cbn [map]; [reflexivity|]. now rewrite H, <- IH. Qed.
End Gen.

(** Folding a commutative and associative operation in any order. *)
Lemma fold1_perm {A} (f : A -> A -> A) (P : A -> A -> Prop) :
  (forall a b c, f (f a b) c = f a (f b c)) ->
  (forall a b, P a b -> f a b = f b a) ->
  forall l l' a a', Permutation (a :: l) (a' :: l') ->
  (forall x y, In x (a :: l) -> In y (a :: l) -> P x y) ->
  fold_left f l a = fold_left f l' a'.
Proof.
  intros Ha Hc.
  (* value of a non-empty list *)
  set (F := fun l : list A => match l with [] => None | a :: l => Some (fold_left f l a) end).
  assert (Hassoc : forall l a b, fold_left f l (f a b) = f a (fold_left f l b)).
  { induction l as [|c l IH]; intros a b; cbn [fold_left]; [reflexivity|]. rewrite Ha. apply IH. }
  assert (HF : forall l l', Permutation l l' -> (forall x y, In x l -> In y l -> P x y) -> F l = F l').
  { induction 1 as [|x l l' H IH|x y l|l l' l'' H IH H' IH']; intros HP.
    - reflexivity.
    - cbn [F]. f_equal. assert (E : F l = F l') by (apply IH; intros u v Hu Hv; apply HP; now right).
      destruct l as [|b l], l' as [|b' l']; cbn [F] in E; try discriminate; [reflexivity|].
      cbn [fold_left]. rewrite !Hassoc. injection E as ->. reflexivity.
    - cbn [F fold_left]. rewrite (Hc y x); [reflexivity|]. apply HP; simpl; auto.
    - rewrite IH by exact HP. apply IH'. intros u v Hu Hv. apply HP; eapply Permutation_in; try eassumption; now apply Permutation_sym. }
  intros l l' a a' Hp HP. specialize (HF _ _ Hp HP). cbn [F] in HF. congruence.
Qed.

(** ** Tracking *)
Definition tadd {D} (m1 m2 : tmeas D) : tmeas D :=
  {| t_misses := t_misses m1 + t_misses m2; t_fps := t_fps m1 + t_fps m2;
     t_mismatches := t_mismatches m1 + t_mismatches m2; t_matches := t_matches m1 + t_matches m2;
     t_objects := t_objects m1 + t_objects m2; t_cost := (t_cost m1 + t_cost m2)%Q;
     t_cutoff := t_cutoff m1; t_details := [] |}.
Lemma merge_tracking_ok {D} (a b : tmeas D) : t_cut a = t_cut b -> isS (t_cut a) -> merge_tracking a b = Ok (tadd a b).
Proof.
  intros [= E] _. unfold merge_tracking. rewrite E.
  rewrite (proj2 (Qeq_bool_iff _ _) (Qeq_refl _)). cbn [negb]. unfold tadd. rewrite E. reflexivity.
Qed.
Lemma Qplus_comm_L (a b : Q) : (a + b = b + a)%Q.
Proof. destruct a, b. unfold Qplus. cbn. f_equal; [lia|apply Pos.mul_comm]. Qed.
Lemma Qplus_assoc_L (a b c : Q) : (a + b + c = a + (b + c))%Q.
Proof. destruct a, b, c. unfold Qplus; cbn; f_equal; [rewrite ?Pos2Z.inj_mul; ring|symmetry; apply Pos.mul_assoc]. Qed.
Lemma tadd_comm {D} (a b : tmeas D) : t_cut a = t_cut b -> tadd a b = tadd b a.
Proof. intros [= E]. unfold tadd. rewrite E. f_equal; try apply Z.add_comm. apply Qplus_comm_L. Qed.
Lemma tadd_assoc {D} (a b c : tmeas D) : tadd (tadd a b) c = tadd a (tadd b c).
Proof. unfold tadd. cbn. f_equal; try lia. apply Qplus_assoc_L. Qed.
Lemma tadd_cut {D} (a b : tmeas D) : t_cut a = t_cut b -> t_cut (tadd a b) = t_cut a.
Proof. reflexivity. Qed.

Definition consistent {M} (cut : M -> option Q) (S : list (breakdown * list (option Q))) (L : list (list (measurements M))) : Prop :=
  S <> [] /\ all_set S /\ forall v, In v L -> shape cut v = S.
Lemma t_all_set {D} (v : list (measurements (tmeas D))) : all_set (shape t_cut v).
Proof.
  unfold all_set, shape. apply Forall_forall. intros p Hp. apply in_map_iff in Hp. destruct Hp as (x & <- & _).
  cbn [snd]. apply Forall_forall. intros o Ho. apply in_map_iff in Ho. destruct Ho as (y & <- & _). discriminate.
Qed.
Lemma tracking_vec {D} (a b : list (measurements (tmeas D))) : a <> [] -> b <> [] ->
  merge_tracking_vector merge_tracking a b = zipM (merge_measurements merge_tracking) a b.
Proof. destruct a, b; intros H1 H2; try contradiction. reflexivity. Qed.

(** Empty vectors are skipped. *)
Definition nonempty {A} (v : list A) : bool := match v with [] => false | _ => true end.
Lemma merge_skip {D} (L : list (list (measurements (tmeas D)))) : forall acc,
  foldM (merge_tracking_vector merge_tracking) L acc =
  foldM (merge_tracking_vector merge_tracking) (filter nonempty L) acc.
Proof.
  induction L as [|v L IH]; intros acc; cbn [foldM filter]; [reflexivity|].
  destruct v as [|x v]; cbn [nonempty].
  - destruct acc; cbn [merge_tracking_vector bind]; apply IH.
  - cbn [foldM]. destruct (merge_tracking_vector _ acc (x :: v)); cbn [bind]; [apply IH|reflexivity].
Qed.

Lemma merge_scenes_nonempty {D} (v : list (measurements (tmeas D))) L :
  v <> [] -> (forall w, In w L -> shape t_cut w = shape t_cut v) ->
  merge_scenes (v :: L) = Ok (fold_left (vadd tadd) L v) /\
  shape t_cut (fold_left (vadd tadd) L v) = shape t_cut v.
Proof.
  intros Hne HL. unfold merge_scenes. cbn [foldM merge_tracking_vector bind].
  apply (fold_vec t_cut merge_tracking tadd merge_tracking_ok tadd_cut); auto.
  - exact tracking_vec.
  - apply t_all_set.
Qed.

Lemma shape_nonempty {M} (cut : M -> option Q) v w : shape cut v = shape cut w -> w <> [] -> v <> [].
Proof. intros E Hw ->. destruct w; [contradiction|discriminate E]. Qed.

Lemma t_fold_fields {D} (bs : list (tmeas D)) : forall a,
  t_counters (fold_left tadd bs a) =
  [t_misses a + Zsum (map t_misses bs); t_fps a + Zsum (map t_fps bs);
   t_mismatches a + Zsum (map t_mismatches bs); t_matches a + Zsum (map t_matches bs);
   t_objects a + Zsum (map t_objects bs)] /\
  (t_cost (fold_left tadd bs a) == t_cost a + Qsum (map t_cost bs))%Q.
Proof.
  induction bs as [|b bs IH]; intros a; cbn [fold_left map].
  - change (Zsum []) with 0. change (Qsum []) with 0%Q. rewrite !Z.add_0_r. split; [reflexivity|ring].
  - destruct (IH (tadd a b)) as [I1 I2]. rewrite I1, I2. cbn [tadd t_misses t_fps t_mismatches t_matches t_objects t_cost].
    split.
    + unfold Zsum. cbn [fold_right]. repeat (f_equal; [lia|]). f_equal. lia.
    + rewrite Qsum_cons. ring.
Qed.
Lemma zsum_cells_map {M} (g : M -> Z) L i j bs :
  Forall2 (fun v b => cell v i j = Some b) L bs ->
  zsum_cells (M:=M) g L i j = Zsum (map g bs).
Proof.
  intros H. unfold zsum_cells. f_equal. induction H as [|v b L bs E _ IH]; cbn [map]; [reflexivity|].
  now rewrite E, IH.
Qed.
Lemma qsum_cells_map {M} (g : M -> Q) L i j bs :
  Forall2 (fun v b => cell v i j = Some b) L bs -> qsum_cells (M:=M) g L i j = Qsum (map g bs).
Proof.
  intros H. unfold qsum_cells. f_equal. induction H as [|v b L bs E _ IH]; cbn [map]; [reflexivity|].
  now rewrite E, IH.
Qed.
Lemma zsum_cells_cons {M} (g : M -> Z) v L i j a : cell v i j = Some a ->
  zsum_cells g (v :: L) i j = g a + zsum_cells g L i j.
Proof. intros E. unfold zsum_cells. cbn [map]. rewrite E. reflexivity. Qed.
Lemma qsum_cells_cons {M} (g : M -> Q) v L i j a : cell v i j = Some a ->
  qsum_cells g (v :: L) i j = (g a + qsum_cells g L i j)%Q.
Proof. intros E. unfold qsum_cells. cbn [map]. rewrite E. reflexivity. Qed.

Theorem merge_scenes_sums {D} (L : list (list (measurements (tmeas D)))) S :
  L <> [] -> S <> [] -> (forall v, In v L -> shape t_cut v = S) ->
  exists v, merge_scenes L = Ok v /\ shape t_cut v = S /\
    forall i j m, cell v i j = Some m ->
      t_misses m = zsum_cells t_misses L i j /\ t_fps m = zsum_cells t_fps L i j /\
      t_mismatches m = zsum_cells t_mismatches L i j /\ t_matches m = zsum_cells t_matches L i j /\
      t_objects m = zsum_cells t_objects L i j /\ (t_cost m == qsum_cells t_cost L i j)%Q.
Proof.
  intros HL HS Hsh. destruct L as [|v L]; [contradiction|].
  assert (Ev : shape t_cut v = S) by (apply Hsh; now left).
  assert (Hv : v <> []) by (intros ->; apply HS; now rewrite <- Ev).
  assert (HL' : forall w, In w L -> shape t_cut w = shape t_cut v) by (intros w Hw; rewrite Ev; apply Hsh; now right).
  destruct (merge_scenes_nonempty v L Hv HL') as [E1 E2].
  exists (fold_left (vadd tadd) L v). split; [exact E1|]. split; [now rewrite E2|].
  intros i j m Hm. destruct (cell v i j) as [a|] eqn:Ea.
  - destruct (cell_fold t_cut merge_tracking tadd merge_tracking_ok tadd_cut L i j v a Ea HL' (t_all_set v)) as (bs & F & Ec).
    rewrite Ec in Hm. injection Hm as <-.
    destruct (t_fold_fields bs a) as [I1 I2]. injection I1 as -> -> -> -> ->.
    rewrite !(zsum_cells_cons _ v L i j a Ea), (qsum_cells_cons _ v L i j a Ea).
    rewrite !(zsum_cells_map _ L i j bs F), (qsum_cells_map _ L i j bs F). auto 10.
  - rewrite (cell_fold_none t_cut merge_tracking tadd merge_tracking_ok tadd_cut L i j v Ea HL' (t_all_set v)) in Hm. discriminate.
Qed.

Theorem merge_scenes_perm {D} (L L' : list (list (measurements (tmeas D)))) S :
  Permutation L L' -> (forall v, In v L -> v <> [] -> shape t_cut v = S) ->
  merge_scenes L = merge_scenes L'.
Proof.
  intros Hp Hsh. unfold merge_scenes. rewrite (merge_skip L), (merge_skip L').
  assert (Hp' : Permutation (filter nonempty L) (filter nonempty L')).
  { clear -Hp. induction Hp as [|x l l' H IH|x y l|l l' l'' H IH H' IH']; cbn [filter].
    - constructor.
    - destruct (nonempty x); [now constructor|exact IH].
    - destruct (nonempty x), (nonempty y); try reflexivity. apply perm_swap.
    - etransitivity; eassumption. }
  assert (Hsh' : forall v, In v (filter nonempty L) -> v <> [] /\ shape t_cut v = S).
  { intros v Hv. apply filter_In in Hv. destruct Hv as [Hv Hn].
    assert (v <> []) by (destruct v; [discriminate|discriminate]). auto. }
  clear Hp Hsh. set (K := filter nonempty L) in *. set (K' := filter nonempty L') in *. clearbody K K'.
  fold (merge_scenes K). fold (merge_scenes K').
  assert (Hsh2 : forall v, In v K' -> v <> [] /\ shape t_cut v = S).
  { intros v Hv. apply Hsh'. eapply Permutation_in; [apply Permutation_sym, Hp'|exact Hv]. }
  destruct K as [|v K].
  - apply Permutation_nil in Hp'. now subst.
  - destruct K' as [|v' K']; [apply Permutation_sym, Permutation_nil in Hp'; discriminate|].
    destruct (Hsh' v (or_introl eq_refl)) as [Hv Ev]. destruct (Hsh2 v' (or_introl eq_refl)) as [Hv' Ev'].
    assert (HK : forall w, In w K -> shape t_cut w = shape t_cut v).
    { intros w Hw. rewrite Ev. apply Hsh'. now right. }
    assert (HK' : forall w, In w K' -> shape t_cut w = shape t_cut v').
    { intros w Hw. rewrite Ev'. apply Hsh2. now right. }
    destruct (merge_scenes_nonempty v K Hv HK) as [E1 E2]. destruct (merge_scenes_nonempty v' K' Hv' HK') as [E1' E2'].
    rewrite E1, E1'. f_equal. apply (vec_ext t_cut); [now rewrite E2, E2', Ev, Ev'|].
    intros i j. destruct (cell v i j) as [a|] eqn:Ea.
    + destruct (cell_fold t_cut merge_tracking tadd merge_tracking_ok tadd_cut K i j v a Ea HK (t_all_set v)) as (bs & F & Ec).
      assert (Es : shape t_cut v = shape t_cut v') by now rewrite Ev, Ev'.
      pose proof (shape_cell t_cut v v' i j Es) as Hc. rewrite Ea in Hc.
      destruct (cell v' i j) as [a'|] eqn:Ea'; [|contradiction].
      destruct (cell_fold t_cut merge_tracking tadd merge_tracking_ok tadd_cut K' i j v' a' Ea' HK' (t_all_set v')) as (bs' & F' & Ec').
      rewrite Ec, Ec'. f_equal.
      apply (fold1_perm tadd (fun x y => t_cut x = t_cut y) tadd_assoc tadd_comm).
      * pose proof (Forall2_cells K i j a bs F) as Eb. pose proof (Forall2_cells K' i j a bs' F') as Eb'.
        pose proof (Permutation_map (fun v => match cell v i j with Some b => b | None => a end) Hp') as Hm.
        cbn [map] in Hm. rewrite Ea, Ea', <- Eb, <- Eb' in Hm. exact Hm.
      * assert (Hall : forall x, In x (a :: bs) -> t_cut x = t_cut a).
        { intros x [<-|Hx]; [reflexivity|]. clear -F Hx HK Ea. induction F as [|w b K bs Ew F IH]; [destruct Hx|].
          destruct Hx as [<-|Hx]; [|apply IH; auto; intros; apply HK; now right].
          pose proof (shape_cell t_cut w v i j (HK w (or_introl eq_refl))) as Hc. rewrite Ew, Ea in Hc. exact Hc. }
        intros x y Hx Hy. now rewrite (Hall x Hx), (Hall y Hy).
    + assert (Ea' : cell v' i j = None).
      { assert (Es : shape t_cut v = shape t_cut v') by now rewrite Ev, Ev'.
        pose proof (shape_cell t_cut v v' i j Es) as Hc. rewrite Ea in Hc. destruct (cell v' i j); [contradiction|reflexivity]. }
      rewrite (cell_fold_none t_cut merge_tracking tadd merge_tracking_ok tadd_cut K i j v Ea HK (t_all_set v)).
      rewrite (cell_fold_none t_cut merge_tracking tadd merge_tracking_ok tadd_cut K' i j v' Ea' HK' (t_all_set v')). reflexivity.
Qed.

(** ** Grouping *)
Lemma vadd_assoc {M} (f : M -> M -> M) : (forall a b c, f (f a b) c = f a (f b c)) ->
  forall u v w, vadd f (vadd f u v) w = vadd f u (vadd f v w).
Proof.
  intros Hf.
  assert (Hms : forall a b c : list M,
    map (fun q => f (fst q) (snd q)) (combine (map (fun q => f (fst q) (snd q)) (combine a b)) c) =
    map (fun q => f (fst q) (snd q)) (combine a (map (fun q => f (fst q) (snd q)) (combine b c)))).
  { induction a as [|x a IH]; intros [|y b] [|z c]; cbn [combine map]; try reflexivity. cbn [fst snd]. now rewrite Hf, IH. }
  induction u as [|x u IH]; intros [|y v] [|z w]; unfold vadd; cbn [combine map]; try reflexivity.
  cbn [fst snd]. f_equal; [|apply IH]. unfold madd. cbn [bd ms]. f_equal. apply Hms.
Qed.
Lemma fold_vadd_assoc {M} (f : M -> M -> M) : (forall a b c, f (f a b) c = f a (f b c)) ->
  forall L u v, fold_left (vadd f) L (vadd f u v) = vadd f u (fold_left (vadd f) L v).
Proof.
  intros Hf. induction L as [|w L IH]; intros u v; cbn [fold_left]; [reflexivity|].
  now rewrite (vadd_assoc f Hf), IH.
Qed.

Lemma merge_scenes_skip {D} (L : list (list (measurements (tmeas D)))) :
  merge_scenes L = merge_scenes (filter nonempty L).
Proof. apply merge_skip. Qed.

Theorem merge_scenes_group {D} (L1 L2 : list (list (measurements (tmeas D)))) S :
  (forall v, In v (L1 ++ L2) -> v <> [] -> shape t_cut v = S) ->
  exists v1 v2, merge_scenes L1 = Ok v1 /\ merge_scenes L2 = Ok v2 /\
    merge_scenes (L1 ++ L2) = merge_scenes [v1; v2].
Proof.
  intros Hsh. rewrite (merge_scenes_skip L1), (merge_scenes_skip L2), (merge_scenes_skip (L1 ++ L2)), filter_app.
  assert (H1 : forall v, In v (filter nonempty L1) -> v <> [] /\ shape t_cut v = S).
  { intros v Hv. apply filter_In in Hv. destruct Hv as [Hv Hn]. assert (v <> []) by (destruct v; discriminate).
    split; [assumption|]. apply Hsh; [apply in_or_app; now left|assumption]. }
  assert (H2 : forall v, In v (filter nonempty L2) -> v <> [] /\ shape t_cut v = S).
  { intros v Hv. apply filter_In in Hv. destruct Hv as [Hv Hn]. assert (v <> []) by (destruct v; discriminate).
    split; [assumption|]. apply Hsh; [apply in_or_app; now right|assumption]. }
  revert H1 H2. generalize (filter nonempty L1) as K1. generalize (filter nonempty L2) as K2. intros K2 K1 H1 H2.
  destruct K1 as [|u K1].
  - cbn [app]. destruct K2 as [|w K2].
    + exists [], []. repeat split; reflexivity.
    + destruct (H2 w (or_introl eq_refl)) as [Hw Ew].
      assert (HK : forall x, In x K2 -> shape t_cut x = shape t_cut w) by (intros x Hx; rewrite Ew; apply H2; now right).
      destruct (merge_scenes_nonempty w K2 Hw HK) as [E _]. exists [], (fold_left (vadd tadd) K2 w).
      rewrite E. repeat split; reflexivity.
  - destruct (H1 u (or_introl eq_refl)) as [Hu Eu].
    assert (HK1 : forall x, In x K1 -> shape t_cut x = shape t_cut u) by (intros x Hx; rewrite Eu; apply H1; now right).
    destruct (merge_scenes_nonempty u K1 Hu HK1) as [E1 S1].
    assert (N1 : fold_left (vadd tadd) K1 u <> []) by (eapply shape_nonempty; [exact S1|exact Hu]).
    destruct K2 as [|w K2].
    + exists (fold_left (vadd tadd) K1 u), []. rewrite app_nil_r, E1. repeat split; try reflexivity.
      unfold merge_scenes. cbn [foldM merge_tracking_vector bind]. destruct (fold_left (vadd tadd) K1 u); reflexivity.
    + destruct (H2 w (or_introl eq_refl)) as [Hw Ew].
      assert (HK2 : forall x, In x K2 -> shape t_cut x = shape t_cut w) by (intros x Hx; rewrite Ew; apply H2; now right).
      destruct (merge_scenes_nonempty w K2 Hw HK2) as [E2 S2].
      exists (fold_left (vadd tadd) K1 u), (fold_left (vadd tadd) K2 w). rewrite E1, E2.
      split; [reflexivity|split; [reflexivity|]].
      assert (HA : forall x, In x (K1 ++ w :: K2) -> shape t_cut x = shape t_cut u).
      { intros x Hx. rewrite Eu. apply in_app_or in Hx. destruct Hx as [Hx|Hx]; [apply H1; now right|now apply H2]. }
      cbn [app]. destruct (merge_scenes_nonempty u (K1 ++ w :: K2) Hu HA) as [E3 _]. rewrite E3.
      assert (HB : forall x, In x [fold_left (vadd tadd) K2 w] -> shape t_cut x = shape t_cut (fold_left (vadd tadd) K1 u)).
      { intros x [<-|[]]. now rewrite S1, S2, Eu, Ew. }
      destruct (merge_scenes_nonempty _ _ N1 HB) as [E4 _]. rewrite E4. f_equal.
      rewrite fold_left_app. cbn [fold_left]. now apply fold_vadd_assoc, tadd_assoc.
Qed.

(** ** When merging is defined *)
Definition only_check {A} (r : result A) : Prop := match r with Ok _ => True | Err e => e = CheckFailed end.
Lemma zipM_iff {A} (f : A -> A -> result A) (P : A -> A -> Prop) :
  (forall a b, (exists c, f a b = Ok c) <-> P a b) -> (forall a b, only_check (f a b)) ->
  forall l l', ((exists r, zipM f l l' = Ok r) <-> Forall2 P l l') /\ only_check (zipM f l l').
Proof.
  intros Hf Hc. induction l as [|a l IH]; intros [|b l']; cbn [zipM].
  - split; [|exact I]. split; [constructor|eexists; reflexivity].
  - split; [|reflexivity]. split; [intros [r Hr]; discriminate|intros H; inversion H].
  - split; [|reflexivity]. split; [intros [r Hr]; discriminate|intros H; inversion H].
  - destruct (IH l') as [I1 I2]. pose proof (Hc a b) as Hab. destruct (f a b) as [c|e] eqn:E; cbn [bind].
    + destruct (zipM f l l') as [cs|e]; cbn [bind].
      * split; [|exact I]. split; [intros _|intros _; eexists; reflexivity].
        constructor; [apply Hf; eauto|apply I1; eauto].
      * split; [|exact I2]. split; [intros [r Hr]; discriminate|intros H; inversion H; subst].
        destruct (proj2 I1) as [r Hr]; [assumption|discriminate].
    + split; [|exact Hab]. split; [intros [r Hr]; discriminate|intros H; inversion H; subst].
      destruct (proj2 (Hf a b)) as [r Hr]; [assumption|]. congruence.
Qed.
Lemma breakdown_eqb_iff a b : breakdown_eqb a b = true <-> a = b.
Proof.
  destruct a as [[a1 a2] a3], b as [[b1 b2] b3]. cbn. rewrite !andb_true_iff, !Z.eqb_eq. split.
  - intros [[-> ->] ->]. reflexivity.
  - intros [= -> -> ->]. auto.
Qed.
Lemma merge_measurements_iff {M} (f : M -> M -> result M) (P : M -> M -> Prop) :
  (forall a b, (exists c, f a b = Ok c) <-> P a b) -> (forall a b, only_check (f a b)) ->
  forall a b, ((exists r, merge_measurements f a b = Ok r) <-> mergeable P a b) /\ only_check (merge_measurements f a b).
Proof.
  intros Hf Hc a b. unfold merge_measurements, mergeable.
  destruct (zipM_iff f P Hf Hc (ms a) (ms b)) as [Z1 Z2].
  destruct (ms a) as [|x l] eqn:Ea.
  - split; [|exact I]. split; [now left|eexists; reflexivity].
  - rewrite <- Ea in *. destruct (Nat.eqb (length (ms a)) (length (ms b))) eqn:El; cbn [negb].
    + destruct (breakdown_eqb (bd a) (bd b)) eqn:Eb; cbn [negb].
      * apply breakdown_eqb_iff in Eb. destruct (zipM f (ms a) (ms b)) as [r|e]; cbn [bind].
        -- split; [|exact I]. split; [intros _; right; split; [exact Eb|apply Z1; eauto]|intros _; eexists; reflexivity].
        -- split; [|exact Z2]. split; [intros [r Hr]; discriminate|].
           intros [H|[_ H]]; [rewrite H in Ea; discriminate|]. apply Z1 in H. destruct H as [r Hr]. discriminate.
      * split; [|reflexivity]. split; [intros [r Hr]; discriminate|].
        intros [H|[H _]]; [rewrite H in Ea; discriminate|]. apply breakdown_eqb_iff in H. congruence.
    + split; [|reflexivity]. split; [intros [r Hr]; discriminate|].
      intros [H|[_ H]]; [rewrite H in Ea; discriminate|]. apply forall2_length in H. apply Nat.eqb_neq in El. contradiction.
Qed.
Lemma merge_tracking_iff {D} (a b : tmeas D) : (exists c, merge_tracking a b = Ok c) <-> same_cutoff a b.
Proof.
  unfold merge_tracking, same_cutoff. rewrite <- Qeq_bool_iff.
  destruct (Qeq_bool _ _); cbn [negb]; split; auto; [eauto|intros [c Hc]; discriminate|discriminate].
Qed.
Lemma merge_tracking_check {D} (a b : tmeas D) : only_check (merge_tracking a b).
Proof. unfold merge_tracking. destruct (Qeq_bool _ _); cbn [negb only_check]; auto. Qed.
Lemma merge_detection_iff {D} (a b : dmeas D) : (exists c, merge_detection a b = Ok c) <-> same_dcutoff a b.
Proof.
  unfold merge_detection, same_dcutoff. destruct (d_cutoff a), (d_cutoff b); try (split; eauto; fail).
  rewrite <- Qeq_bool_iff. destruct (Qeq_bool _ _); cbn [negb]; split; auto; [eauto|intros [c Hc]; discriminate|discriminate].
Qed.
Lemma merge_detection_check {D} (a b : dmeas D) : only_check (merge_detection a b).
Proof.
  unfold merge_detection. destruct (d_cutoff a), (d_cutoff b); cbn [only_check]; auto.
  destruct (Qeq_bool _ _); cbn [negb only_check]; auto.
Qed.

Theorem merge_tracking_defined {D} (a b : list (measurements (tmeas D))) :
  ((exists v, merge_scenes [a; b] = Ok v) <-> (a = [] \/ b = [] \/ Forall2 (mergeable same_cutoff) a b)) /\
  only_check (merge_scenes [a; b]).
Proof.
  destruct (zipM_iff (merge_measurements merge_tracking) (mergeable same_cutoff)
    (fun a b => proj1 (merge_measurements_iff _ _ merge_tracking_iff merge_tracking_check a b))
    (fun a b => proj2 (merge_measurements_iff _ _ merge_tracking_iff merge_tracking_check a b)) a b) as [Z1 Z2].
  unfold merge_scenes. cbn [foldM merge_tracking_vector bind].
  destruct a as [|x a]; [split; [|exact I]; split; [now left|intros _; eexists; reflexivity]|].
  destruct b as [|y b]; [split; [|exact I]; split; [right; now left|intros _; eexists; reflexivity]|].
  cbn [merge_tracking_vector]. destruct (zipM _ _ _) as [r|e]; cbn [bind].
  - split; [|exact I]. split; [intros _; right; right; apply Z1; eauto|intros _; eauto].
  - split; [|exact Z2]. split; [intros [r Hr]; discriminate|].
    intros [H|[H|H]]; try discriminate. apply Z1 in H. destruct H as [r Hr]. discriminate.
Qed.
Theorem merge_detection_defined {D} (a b : list (measurements (dmeas D))) :
  ((exists v, merge_frames [a; b] = Ok v) <-> (a = [] \/ Forall2 (mergeable same_dcutoff) a b)) /\
  only_check (merge_frames [a; b]).
Proof.
  destruct (zipM_iff (merge_measurements merge_detection) (mergeable same_dcutoff)
    (fun a b => proj1 (merge_measurements_iff _ _ merge_detection_iff merge_detection_check a b))
    (fun a b => proj2 (merge_measurements_iff _ _ merge_detection_iff merge_detection_check a b)) a b) as [Z1 Z2].
  unfold merge_frames. cbn [foldM merge_detection_vector bind].
  destruct a as [|x a]; [split; [|exact I]; split; [now left|intros _; eexists; reflexivity]|].
  cbn [merge_detection_vector]. destruct (zipM _ _ _) as [r|e]; cbn [bind].
  - split; [|exact I]. split; [intros _; right; apply Z1; eauto|intros _; eauto].
  - split; [|exact Z2]. split; [intros [r Hr]; discriminate|].
    intros [H|H]; try discriminate. apply Z1 in H. destruct H as [r Hr]. discriminate.
Qed.

(** ** Detection *)
Definition dadd {D} (m1 m2 : dmeas D) : dmeas D :=
  {| d_cutoff := d_cutoff m1; d_tps := d_tps m1 + d_tps m2; d_fps := d_fps m1 + d_fps m2;
     d_fns := d_fns m1 + d_fns m2; d_ha := (d_ha m1 + d_ha m2)%Q; d_la := (d_la m1 + d_la m2)%Q;
     d_details := if Nat.eqb (length (d_details m1)) 1 || Nat.eqb (length (d_details m2)) 1
                  then d_details m1 ++ d_details m2 else [] |}.
Lemma merge_detection_ok {D} (a b : dmeas D) : d_cutoff a = d_cutoff b -> isS (d_cutoff a) -> merge_detection a b = Ok (dadd a b).
Proof.
  intros E Hs. unfold merge_detection, dadd. rewrite E in *. destruct (d_cutoff b) as [c|]; [|now destruct Hs].
  rewrite (proj2 (Qeq_bool_iff _ _) (Qeq_refl _)). cbn [negb]. reflexivity.
Qed.
Lemma dadd_cut {D} (a b : dmeas D) : d_cutoff a = d_cutoff b -> d_cutoff (dadd a b) = d_cutoff a.
Proof. reflexivity. Qed.
Lemma detection_vec {D} (a b : list (measurements (dmeas D))) : a <> [] -> b <> [] ->
  merge_detection_vector merge_detection a b = zipM (merge_measurements merge_detection) a b.
Proof. destruct a, b; intros H1 H2; try contradiction. reflexivity. Qed.
Lemma cutoffs_all_set {M} (cut : M -> option Q) v : cutoffs_set cut v -> all_set (shape cut v).
Proof.
  intros H. unfold all_set, shape. apply Forall_forall. intros p Hp. apply in_map_iff in Hp. destruct Hp as (x & <- & Hx).
  cbn [snd]. apply Forall_forall. intros o Ho. apply in_map_iff in Ho. destruct Ho as (y & <- & Hy).
  apply In_nth_error in Hx. destruct Hx as [i Hi]. apply In_nth_error in Hy. destruct Hy as [j Hj].
  apply (H i j y). unfold cell. rewrite Hi. exact Hj.
Qed.
Lemma d_fold_fields {D} (bs : list (dmeas D)) : forall a,
  d_counters (fold_left dadd bs a) =
  [d_tps a + Zsum (map d_tps bs); d_fps a + Zsum (map d_fps bs); d_fns a + Zsum (map d_fns bs)] /\
  (d_ha (fold_left dadd bs a) == d_ha a + Qsum (map d_ha bs))%Q /\
  (d_la (fold_left dadd bs a) == d_la a + Qsum (map d_la bs))%Q.
Proof.
  induction bs as [|b bs IH]; intros a; cbn [fold_left map].
  - change (Zsum []) with 0. change (Qsum []) with 0%Q. rewrite !Z.add_0_r. split; [reflexivity|split; ring].
  - destruct (IH (dadd a b)) as (I1 & I2 & I3). rewrite I1, I2, I3. cbn [dadd d_tps d_fps d_fns d_ha d_la].
    split.
    + unfold Zsum. cbn [fold_right]. repeat (f_equal; [lia|]). f_equal. lia.
    + rewrite !Qsum_cons. split; ring.
Qed.
Lemma merge_frames_nonempty {D} (v : list (measurements (dmeas D))) L :
  v <> [] -> all_set (shape d_cutoff v) -> (forall w, In w L -> shape d_cutoff w = shape d_cutoff v) ->
  merge_frames (v :: L) = Ok (fold_left (vadd dadd) L v) /\
  shape d_cutoff (fold_left (vadd dadd) L v) = shape d_cutoff v.
Proof.
  intros Hne Hs HL. unfold merge_frames. cbn [foldM merge_detection_vector bind].
  apply (fold_vec d_cutoff merge_detection dadd merge_detection_ok dadd_cut); auto. exact detection_vec.
Qed.
Lemma d_fold_details {D} (bs : list (dmeas D)) : forall a,
  (forall b, In b bs -> length (d_details b) = 1%nat) ->
  d_details (fold_left dadd bs a) = d_details a ++ concat (map d_details bs).
Proof.
  induction bs as [|b bs IH]; intros a Hb; cbn [fold_left map concat]; [now rewrite app_nil_r|].
  rewrite IH by (intros x Hx; apply Hb; now right). cbn [dadd d_details].
  rewrite (Hb b (or_introl eq_refl)), Nat.eqb_refl, orb_true_r. now rewrite app_assoc.
Qed.

Theorem merge_frames_sums {D} (L : list (list (measurements (dmeas D)))) S :
  L <> [] -> S <> [] -> (forall v, In v L -> shape d_cutoff v = S /\ cutoffs_set d_cutoff v) ->
  exists v, merge_frames L = Ok v /\ shape d_cutoff v = S /\
    forall i j m, cell v i j = Some m ->
      d_tps m = zsum_cells d_tps L i j /\ d_fps m = zsum_cells d_fps L i j /\ d_fns m = zsum_cells d_fns L i j /\
      (d_ha m == qsum_cells d_ha L i j)%Q /\ (d_la m == qsum_cells d_la L i j)%Q /\
      ((forall w b, In w L -> cell w i j = Some b -> length (d_details b) = 1%nat) ->
       d_details m = concat_cells d_details L i j).
Proof.
  intros HL HS Hsh. destruct L as [|v L]; [contradiction|].
  destruct (Hsh v (or_introl eq_refl)) as [Ev Cv].
  assert (Hv : v <> []) by (intros ->; apply HS; now rewrite <- Ev).
  assert (HL' : forall w, In w L -> shape d_cutoff w = shape d_cutoff v) by (intros w Hw; rewrite Ev; apply Hsh; now right).
  apply cutoffs_all_set in Cv.
  destruct (merge_frames_nonempty v L Hv Cv HL') as [E1 E2].
  exists (fold_left (vadd dadd) L v). split; [exact E1|]. split; [now rewrite E2|].
  intros i j m Hm. destruct (cell v i j) as [a|] eqn:Ea.
  - destruct (cell_fold d_cutoff merge_detection dadd merge_detection_ok dadd_cut L i j v a Ea HL' Cv) as (bs & F & Ec).
    rewrite Ec in Hm. injection Hm as <-.
    destruct (d_fold_fields bs a) as (I1 & I2 & I3). injection I1 as -> -> ->.
    rewrite !(zsum_cells_cons _ v L i j a Ea), !(qsum_cells_cons _ v L i j a Ea).
    rewrite !(zsum_cells_map _ L i j bs F), !(qsum_cells_map _ L i j bs F).
    repeat split; auto. intros Hd. rewrite d_fold_details.
    + unfold concat_cells. cbn [map concat]. rewrite Ea. f_equal. f_equal.
      clear -F. induction F as [|w b L bs E _ IH]; cbn [map]; [reflexivity|]. now rewrite E, IH.
    + intros b Hb. assert (Hw : exists w, In w L /\ cell w i j = Some b).
      { clear -F Hb. induction F as [|w c L bs E _ IH]; [destruct Hb|]. destruct Hb as [<-|Hb].
        - exists w. split; [now left|exact E].
        - destruct (IH Hb) as (x & Hx & Ex). exists x. split; [now right|exact Ex]. }
      destruct Hw as (w & Hw & Ew). apply (Hd w b); [now right|exact Ew].
  - rewrite (cell_fold_none d_cutoff merge_detection dadd merge_detection_ok dadd_cut L i j v Ea HL' Cv) in Hm. discriminate.
Qed.

Lemma zsum_cells_perm {M} (g : M -> Z) L L' i j : Permutation L L' -> zsum_cells g L i j = zsum_cells g L' i j.
Proof.
  intros H. unfold zsum_cells. induction H; cbn [map]; unfold Zsum in *; cbn [fold_right] in *; lia.
Qed.
Lemma qsum_cells_perm {M} (g : M -> Q) L L' i j : Permutation L L' -> (qsum_cells g L i j == qsum_cells g L' i j)%Q.
Proof. intros H. unfold qsum_cells. apply Qsum_perm. now apply Permutation_map. Qed.

Theorem merge_frames_perm {D} (L L' : list (list (measurements (dmeas D)))) S :
  Permutation L L' -> L <> [] -> S <> [] -> (forall v, In v L -> shape d_cutoff v = S /\ cutoffs_set d_cutoff v) ->
  exists v v', merge_frames L = Ok v /\ merge_frames L' = Ok v' /\ shape d_cutoff v = shape d_cutoff v' /\
    forall i j m m', cell v i j = Some m -> cell v' i j = Some m' ->
      d_counters m = d_counters m' /\ (d_ha m == d_ha m')%Q /\ (d_la m == d_la m')%Q.
Proof.
  intros Hp HL HS Hsh.
  assert (HL' : L' <> []) by (intros ->; apply Permutation_sym, Permutation_nil in Hp; contradiction).
  assert (Hsh' : forall v, In v L' -> shape d_cutoff v = S /\ cutoffs_set d_cutoff v).
  { intros v Hv. apply Hsh. eapply Permutation_in; [apply Permutation_sym, Hp|exact Hv]. }
  destruct (merge_frames_sums L S HL HS Hsh) as (v & E & Sv & H).
  destruct (merge_frames_sums L' S HL' HS Hsh') as (v' & E' & Sv' & H').
  exists v, v'. split; [exact E|split; [exact E'|split; [now rewrite Sv, Sv'|]]].
  intros i j m m' Hm Hm'. destruct (H i j m Hm) as (A1 & A2 & A3 & A4 & A5 & _).
  destruct (H' i j m' Hm') as (B1 & B2 & B3 & B4 & B5 & _).
  unfold d_counters. rewrite A1, A2, A3, B1, B2, B3, A4, A5, B4, B5.
  rewrite !(zsum_cells_perm _ L L' i j Hp), !(qsum_cells_perm _ L L' i j Hp). split; [reflexivity|split; reflexivity].
Qed.

(** ** Precision and recall *)
Lemma dadd_plausible {D} (a b c : dmeas D) : plausible a -> plausible b -> merge_detection a b = Ok c -> plausible c.
Proof.
  unfold merge_detection, plausible. intros Ha Hb H.
  destruct (d_cutoff a), (d_cutoff b); try (apply Ok_inj in H; subst; assumption).
  destruct (Qeq_bool _ _); cbn [negb] in H; [|discriminate]. apply Ok_inj in H. subst c.
  cbn [d_tps d_fps d_fns d_ha d_la]. rewrite !inject_Z_plus.
  destruct Ha as (A1 & A2 & A3 & [A4 A5] & [A6 A7]), Hb as (B1 & B2 & B3 & [B4 B5] & [B6 B7]).
  repeat split; try lia.
  - setoid_replace 0%Q with (0 + 0)%Q by ring. now apply Qplus_le_compat.
  - now apply Qplus_le_compat.
  - setoid_replace 0%Q with (0 + 0)%Q by ring. now apply Qplus_le_compat.
  - now apply Qplus_le_compat.
Qed.
Lemma div_unit (x : Q) (n : Z) : 0 < n -> (0 <= x <= inject_Z n)%Q -> (0 <= x / inject_Z n <= 1)%Q.
Proof.
  intros Hn [H0 H1]. assert (Hp : (0 < inject_Z n)%Q) by (unfold Qlt; cbn; lia). split.
  - apply Qle_shift_div_l; [exact Hp|]. now rewrite Qmult_0_l.
  - apply Qle_shift_div_r; [exact Hp|]. now rewrite Qmult_1_l.
Qed.
Lemma recall_unit {D} (m : dmeas D) : 0 <= d_tps m -> 0 <= d_fns m -> (0 <= recall m <= 1)%Q.
Proof.
  intros H1 H2. unfold recall. destruct (d_tps m + d_fns m <=? 0) eqn:E; [split; discriminate|].
  apply Z.leb_gt in E. apply div_unit; [lia|]. split; unfold Qle; cbn; lia.
Qed.
Theorem reported_unit {D} mp num (m : dmeas D) : 0 <= d_tps m -> 0 <= d_fps m -> 0 <= d_fns m ->
  (0 <= num m <= inject_Z (d_tps m))%Q ->
  (0 <= fst (reported mp num m) <= 1)%Q /\ (0 <= snd (reported mp num m) <= 1)%Q.
Proof.
  intros H1 H2 H3 [H4 H5]. unfold reported. cbn [fst snd]. split; [|now apply recall_unit].
  destruct (Qeq_bool (recall m) 0); [split; discriminate|]. unfold precision.
  destruct (d_tps m + d_fps m <=? 0) eqn:E; [split; discriminate|]. apply Z.leb_gt in E.
  destruct (Qle_bool mp _); cbn [negb]; [|split; discriminate].
  apply div_unit; [lia|]. split; [exact H4|]. eapply Qle_trans; [exact H5|]. unfold Qle; cbn; lia.
Qed.
Theorem reported_exact {D} mp num (m : dmeas D) : 0 <= d_tps m -> 0 <= d_fps m -> 0 <= d_fns m ->
  let p := fst (reported mp num m) in let r := snd (reported mp num m) in
  (d_tps m = 0 -> p = 1%Q /\ (r == 0)%Q) /\
  (0 < d_tps m ->
   (r * inject_Z (d_tps m + d_fns m) == inject_Z (d_tps m))%Q /\
   ((num m < mp * inject_Z (d_tps m + d_fps m))%Q -> p = 0%Q) /\
   ((mp * inject_Z (d_tps m + d_fps m) <= num m)%Q -> (p * inject_Z (d_tps m + d_fps m) == num m)%Q)).
Proof.
  intros H1 H2 H3. cbv zeta. unfold reported. cbn [fst snd]. split.
  - intros E. assert (R : (recall m == 0)%Q).
    { unfold recall. destruct (_ <=? 0) eqn:El; [reflexivity|]. unfold ratio. rewrite E. unfold Qdiv. change (inject_Z 0) with 0%Q. ring. }
    rewrite (proj2 (Qeq_bool_iff _ _) R). auto.
  - intros Hp. assert (R : (recall m * inject_Z (d_tps m + d_fns m) == inject_Z (d_tps m))%Q).
    { unfold recall. destruct (_ <=? 0) eqn:El; [apply Z.leb_le in El; lia|]. apply Z.leb_gt in El.
      unfold ratio. field. unfold Qeq; cbn; lia. }
    split; [exact R|].
    assert (Hr : Qeq_bool (recall m) 0 = false).
    { apply not_true_iff_false. intros E. apply Qeq_bool_iff in E. rewrite E in R. unfold Qeq in R; cbn in R. lia. }
    rewrite Hr. unfold precision. destruct (d_tps m + d_fps m <=? 0) eqn:El; [apply Z.leb_le in El; lia|]. apply Z.leb_gt in El.
    assert (Hs : (0 < inject_Z (d_tps m + d_fps m))%Q) by (unfold Qlt; cbn; lia).
    assert (Hn : ~ (inject_Z (d_tps m + d_fps m) == 0)%Q) by (unfold Qeq; cbn; lia).
    split; intros Hc.
    + destruct (Qle_bool mp _) eqn:Eq; cbn [negb]; [|reflexivity]. apply Qle_bool_iff in Eq. exfalso.
      apply (Qlt_not_le _ _ Hc). apply (Qmult_le_compat_r _ _ (inject_Z (d_tps m + d_fps m))) in Eq; [|now apply Qlt_le_weak].
      setoid_replace (num m / inject_Z (d_tps m + d_fps m) * inject_Z (d_tps m + d_fps m))%Q with (num m) in Eq by (field; exact Hn).
      exact Eq.
    + assert (Eq : Qle_bool mp (num m / inject_Z (d_tps m + d_fps m)) = true).
      { apply Qle_bool_iff. now apply Qle_shift_div_l. }
      rewrite Eq. cbn [negb]. field. exact Hn.
Qed.

(** ** Best MOTA *)
Definition best_inv {D} (l : list (tmeas D)) (acc : tmetrics) : Prop :=
  ((forall m, In m l -> t_objects m <> 0 -> (mota_of m <= 0)%Q) /\
   mota acc = 0%Q /\ motp acc = 0%Q /\ miss acc = 0%Q /\ mismatch acc = 0%Q /\ fp acc = 0%Q /\ m_cutoff acc = 0%Q) \/
  (exists l1 m l2, l = l1 ++ m :: l2 /\ t_objects m <> 0 /\ (0 < mota_of m)%Q /\ (mota acc == mota_of m)%Q /\
   (forall x, In x l1 -> t_objects x <> 0 -> (mota_of x < mota_of m)%Q) /\
   (forall x, In x l2 -> t_objects x <> 0 -> (mota_of x <= mota_of m)%Q) /\
   miss acc = ratio (t_misses m) (t_objects m) /\ fp acc = ratio (t_fps m) (t_objects m) /\
   mismatch acc = ratio (t_mismatches m) (t_objects m) /\ m_cutoff acc = t_cutoff m /\
   motp acc = if 0 <? t_matches m then (t_cost m / inject_Z (t_matches m))%Q else 0%Q).
Lemma mota_ratio {D} (m : tmeas D) :
  (1 - (ratio (t_misses m) (t_objects m) + ratio (t_fps m) (t_objects m) + ratio (t_mismatches m) (t_objects m)) == mota_of m)%Q.
Proof. unfold mota_of, ratio. rewrite !inject_Z_plus. unfold Qdiv. ring. Qed.
Lemma tracking_step_inv {D} (l : list (tmeas D)) m acc : best_inv l acc -> best_inv (l ++ [m]) (tracking_step acc m).
Proof.
  intros H. unfold tracking_step. destruct (t_objects m =? 0) eqn:Eo.
  - apply Z.eqb_eq in Eo. destruct H as [[H0 H]|(l1 & x & l2 & -> & H1 & H2 & H3 & H4 & H5 & H6)].
    + left. split; [|exact H]. intros y Hy Hn. apply in_app_or in Hy. destruct Hy as [Hy|[<-|[]]]; [now apply H0|contradiction].
    + right. exists l1, x, (l2 ++ [m]). rewrite <- app_assoc. cbn [app]. repeat (split; [first [reflexivity|assumption]|]).
      split; [|exact H6]. intros y Hy Hn. apply in_app_or in Hy. destruct Hy as [Hy|[<-|[]]]; [now apply H5|contradiction].
  - apply Z.eqb_neq in Eo. cbv zeta. destruct (Qle_bool _ (mota acc)) eqn:El; cbn [negb].
    + apply Qle_bool_iff in El. rewrite mota_ratio in El.
      destruct H as [[H0 H]|(l1 & x & l2 & -> & H1 & H2 & H3 & H4 & H5 & H6)].
      * left. split; [|exact H]. intros y Hy Hn. apply in_app_or in Hy. destruct Hy as [Hy|[<-|[]]]; [now apply H0|].
        destruct H as [E _]. now rewrite E in El.
      * right. exists l1, x, (l2 ++ [m]). rewrite <- app_assoc. cbn [app]. repeat (split; [first [reflexivity|assumption]|]).
        split; [|exact H6]. intros y Hy Hn. apply in_app_or in Hy. destruct Hy as [Hy|[<-|[]]]; [now apply H5|].
        now rewrite <- H3.
    + assert (Hlt : (mota acc < mota_of m)%Q).
      { apply Qnot_le_lt. intros Hc. rewrite <- mota_ratio in Hc. apply Qle_bool_iff in Hc. congruence. }
      right. exists l, m, []. split; [reflexivity|]. split; [exact Eo|].
      cbn [mota motp miss fp mismatch m_cutoff].
      destruct H as [[H0 [E H]]|(l1 & x & l2 & -> & H1 & H2 & H3 & H4 & H5 & H6)].
      * rewrite E in Hlt. split; [exact Hlt|]. split; [apply mota_ratio|]. split.
        -- intros y Hy Hn. eapply Qle_lt_trans; [now apply H0|exact Hlt].
        -- split; [intros y []|auto 10].
      * split; [eapply Qlt_trans; [exact H2|now rewrite <- H3]|]. split; [apply mota_ratio|]. split.
        -- intros y Hy Hn. rewrite H3 in Hlt. eapply Qle_lt_trans; [|exact Hlt].
           apply in_app_or in Hy. destruct Hy as [Hy|[<-|Hy]].
           ++ apply Qlt_le_weak. now apply H4.
           ++ apply Qle_refl.
           ++ now apply H5.
        -- split; [intros y []|auto 10].
Qed.
Theorem best_mota {D} (l : list (tmeas D)) : best_inv l (to_tracking_metrics l).
Proof.
  unfold to_tracking_metrics.
  assert (H : forall l' l acc, best_inv (D:=D) l acc -> best_inv (l ++ l') (fold_left tracking_step l' acc)).
  { induction l' as [|m l' IH]; intros l0 acc H; cbn [fold_left]; [now rewrite app_nil_r|].
    replace (l0 ++ m :: l') with ((l0 ++ [m]) ++ l') by (rewrite <- app_assoc; reflexivity).
    apply IH. now apply tracking_step_inv. }
  apply (H l [] empty_metrics). left. split; [intros m []|]. repeat split; reflexivity.
Qed.

Theorem merge_unset {D} (a b : dmeas D) :
  (d_cutoff a = None -> merge_detection a b = Ok b) /\
  (d_cutoff a <> None -> d_cutoff b = None -> merge_detection a b = Ok a).
Proof.
  unfold merge_detection. split.
  - intros ->. reflexivity.
  - intros H ->. destruct (d_cutoff a); [reflexivity|congruence].
Qed.
