(** Proofs about breakdown names and subsets. *)
From Coq Require Import String.
From Verif Require Import Base ResultLib ListLib CutoffModel BreakdownModel BreakdownSpec BreakdownProofs.
Open Scope Z_scope.

Theorem shard_ok g o : implemented g = true ->
  (is_ok (shard g o) = true <-> ~ (g = CAMERA /\ camera_unsupported o)).
Proof.
  intros Hg. destruct g; try discriminate Hg; try (split; [intros _ [H _]; discriminate H|intros _; cbn [shard]; destruct (typ o); cbn; repeat (match goal with |- context [if ?b then _ else _] => destruct b end); reflexivity]).
  destruct (typ o) eqn:Et.
  { split; [|intros _; cbn [shard]; now rewrite Et]. intros _ [_ [H _]]. congruence. }
  all: assert (Ht : typ o <> TYPE_UNKNOWN) by congruence; destruct (camera_shard o Ht) as [(i & l & E & _ & (c & d & Hc & Hv))|[[E N]|[E U]]]; rewrite E; cbn [is_ok];
    [split; [|reflexivity]; intros _ [_ (_ & c' & Hv' & Hc')];
       assert (object_camera c' o) by (destruct Hc' as [H|[H1 H2]]; [now left|right; left; now split]);
       rewrite (object_camera_unique _ _ _ Hc H) in Hv; congruence
    |split; [|reflexivity]; intros _ [_ (_ & c' & Hv' & Hc')]; pose proof (camera_shard_err o Ht c' Hv' Hc'); congruence
    |split; [discriminate|intros H; exfalso; apply H; now split]].
Qed.

(** ** Names *)
Definition all_gens : list genid := [ONE_SHARD; OBJECT_TYPE; RANGE; VELOCITY; ALL_BUT_SIGN; SIZE; CAMERA].
Lemma all_gens_in g : implemented g = true -> In g all_gens.
Proof. destruct g; intros H; try discriminate H; cbn; tauto. Qed.
Definition eq_res (a b : result string) : bool := match a, b with Ok x, Ok y => String.eqb x y | _, _ => false end.
Lemma eq_res_true a b : eq_res a b = true -> a = b /\ exists n, a = Ok n.
Proof. destruct a as [x|], b as [y|]; cbn; try discriminate. intros H. apply String.eqb_eq in H. subst. split; [reflexivity|now exists y]. Qed.
Lemma zrange_in s n : In s (zrange n) <-> 0 <= s < n.
Proof.
  unfold zrange. rewrite in_map_iff. split.
  - intros (i & <- & Hi). apply in_seq in Hi. lia.
  - intros H. exists (Z.to_nat s). split; [lia|]. apply in_seq. lia.
Qed.
Lemma names_agree_check : forallb (fun g => forallb (fun s => eq_res (shard_name g s) (py_shard_name g s)) (zrange (num_shards g))) all_gens = true.
Proof. vm_compute. reflexivity. Qed.
Lemma names_agree g s : implemented g = true -> 0 <= s < num_shards g ->
  shard_name g s = py_shard_name g s /\ exists n, shard_name g s = Ok n.
Proof.
  intros Hg Hs. pose proof names_agree_check as H. rewrite forallb_forall in H. specialize (H g (all_gens_in g Hg)). rewrite forallb_forall in H.
  apply eq_res_true. apply H. now apply zrange_in.
Qed.
Lemma num_agree g : implemented g = true -> py_num_shards g = Ok (num_shards g) /\ 0 < num_shards g.
Proof. destruct g; intros H; try discriminate H; split; try reflexivity. Qed.
Lemma num_unimplemented g : implemented g = false -> py_num_shards g = Err ValueError.
Proof. destruct g; intros H; try discriminate H; reflexivity. Qed.

(** All full names, with every level, are distinct. *)
Definition full_name (g : genid) (s : Z) (l : level) : string :=
  match shard_name g s with Ok n => cat [n; "_"; level_name l]%string | Err _ => ""%string end.
Definition all_keys : list (genid * Z * level) :=
  concat (map (fun g => concat (map (fun s => map (fun l => (g, s, l)) [LEVEL_UNKNOWN; LEVEL_1; LEVEL_2]) (zrange (num_shards g)))) all_gens).
Fixpoint nodupb (l : list string) : bool := match l with [] => true | a :: l' => negb (existsb (String.eqb a) l') && nodupb l' end.
Lemma nodupb_true l : nodupb l = true -> NoDup l.
Proof.
  induction l as [|a l IH]; cbn [nodupb]; intros H; constructor; apply andb_true_iff in H; destruct H as [A B].
  - intros Hin. apply negb_true_iff in A. apply not_true_iff_false in A. apply A. apply existsb_exists. exists a. split; [exact Hin|apply String.eqb_refl].
  - now apply IH.
Qed.
Lemma all_names_nodup : NoDup (map (fun k => full_name (fst (fst k)) (snd (fst k)) (snd k)) all_keys).
Proof. apply nodupb_true. vm_compute. reflexivity. Qed.
Lemma nodup_map_inj {A B} (f : A -> B) l x y : NoDup (map f l) -> In x l -> In y l -> f x = f y -> x = y.
Proof.
  induction l as [|a l IH]; intros H Hx Hy E; [destruct Hx|]. cbn [map] in H. inversion H as [|b m N M]; subst.
  destruct Hx as [->|Hx], Hy as [->|Hy]; [reflexivity| | |now apply IH].
  - exfalso. apply N. rewrite E. now apply in_map.
  - exfalso. apply N. rewrite <- E. now apply in_map.
Qed.
Lemma all_keys_in g s l : implemented g = true -> 0 <= s < num_shards g -> In (g, s, l) all_keys.
Proof.
  intros Hg Hs. unfold all_keys. apply in_concat. eexists. split; [apply in_map_iff; exists g; split; [reflexivity|now apply all_gens_in]|].
  apply in_concat. eexists. split; [apply in_map_iff; exists s; split; [reflexivity|now apply zrange_in]|].
  apply in_map_iff. exists l. split; [reflexivity|]. destruct l; cbn; tauto.
Qed.
Lemma full_name_inj g s l g' s' l' : implemented g = true -> implemented g' = true -> 0 <= s < num_shards g -> 0 <= s' < num_shards g' ->
  full_name g s l = full_name g' s' l' -> g = g' /\ s = s' /\ l = l'.
Proof.
  intros Hg Hg' Hs Hs' E.
  assert (H : (g, s, l) = (g', s', l')); [|injection H as -> -> ->; auto].
  apply (nodup_map_inj (fun k => full_name (fst (fst k)) (snd (fst k)) (snd k)) all_keys _ _ all_names_nodup); [now apply all_keys_in|now apply all_keys_in|exact E].
Qed.
Lemma shard_name_inj g s s' : implemented g = true -> 0 <= s < num_shards g -> 0 <= s' < num_shards g ->
  shard_name g s = shard_name g s' -> s = s'.
Proof.
  intros Hg Hs Hs' E. destruct (full_name_inj g s LEVEL_1 g s' LEVEL_1 Hg Hg Hs Hs') as (_ & H & _); [|exact H]. unfold full_name. now rewrite E.
Qed.

(** ** The list of names *)
Definition gen_names (c : config) (ig : nat * genid) : list string :=
  concat (map (fun s => map (full_name (snd ig) s) (match nth (fst ig) (difficulties c) [] with [] => [LEVEL_2] | l => l end)) (zrange (num_shards (snd ig)))).
Definition cfg_ok (c : config) (ig : nat * genid) : bool := implemented (snd ig) && Nat.ltb (fst ig) (List.length (difficulties c)).
Lemma mapM_all_ok {A B} (f : A -> result B) (g : A -> B) l : (forall x, In x l -> f x = Ok (g x)) -> mapM f l = Ok (map g l).
Proof.
  induction l as [|a l IH]; intros H; cbn [mapM map]; [reflexivity|]. rewrite H by now left. cbn [bind]. rewrite IH by (intros x Hx; apply H; now right). reflexivity.
Qed.
Lemma mapM_some_err {A B} (f : A -> result B) l x : In x l -> is_ok (f x) = false -> is_ok (mapM f l) = false.
Proof.
  induction l as [|a l IH]; intros Hx E; [destruct Hx|]. cbn [mapM]. destruct (f a) as [b|e] eqn:Ea; cbn [bind]; [|reflexivity].
  destruct Hx as [->|Hx]; [rewrite Ea in E; discriminate|]. specialize (IH Hx E). destruct (mapM f l); [discriminate|reflexivity].
Qed.
Definition cpp_one (c : config) (ig : nat * genid) : result (list string) :=
  let '(i, g) := ig in
  if negb (implemented g) then Err CheckFailed else
  do levels <- difficulty_levels c i;
  do ns <- mapM (fun s => mapM (fun l => do n <- shard_name g s; Ok (cat [n; "_"; level_name l]%string)) levels) (zrange (num_shards g));
  Ok (concat ns).
Definition py_one (c : config) (ig : nat * genid) : result (list string) :=
  let '(i, g) := ig in
  do n <- py_num_shards g;
  do ns <- mapM (fun s =>
    do levels <- py_index (difficulties c) (Z.of_nat i);
    do name <- py_shard_name g s;
    match levels with
    | [] => Ok [cat [name; "_"; "LEVEL_2"]%string]
    | _ => Ok (map (fun l => cat [name; "_"; level_name l]%string) levels)
    end) (zrange n);
  Ok (concat ns).
Lemma cpp_one_ok c ig : cfg_ok c ig = true -> cpp_one c ig = Ok (gen_names c ig).
Proof.
  destruct ig as [i g]. unfold cfg_ok. cbn [fst snd]. intros H. apply andb_true_iff in H. destruct H as [Hg Hi]. apply Nat.ltb_lt in Hi.
  unfold cpp_one. rewrite Hg. cbn [negb]. unfold difficulty_levels. rewrite (nth_error_nth' _ [] Hi).
  unfold gen_names. cbn [fst snd]. set (ls := nth i (difficulties c) []).
  assert (E : (match ls with [] => Ok [LEVEL_2] | _ :: _ => Ok ls end) = Ok (match ls with [] => [LEVEL_2] | _ :: _ => ls end)) by (destruct ls; reflexivity).
  rewrite E. cbn [bind]. set (lv := match ls with [] => [LEVEL_2] | _ :: _ => ls end).
  rewrite (mapM_all_ok _ (fun s => map (full_name g s) lv)); [unfold lv; destruct ls; reflexivity|]. intros s Hs. apply zrange_in in Hs.
  destruct (names_agree g s Hg Hs) as (_ & n & En). apply mapM_all_ok. intros l _. unfold full_name. now rewrite En.
Qed.
Lemma py_one_ok c ig : cfg_ok c ig = true -> py_one c ig = Ok (gen_names c ig).
Proof.
  destruct ig as [i g]. unfold cfg_ok. cbn [fst snd]. intros H. apply andb_true_iff in H. destruct H as [Hg Hi]. apply Nat.ltb_lt in Hi.
  unfold py_one. destruct (num_agree g Hg) as [En _]. rewrite En. cbn [bind].
  unfold gen_names. cbn [fst snd]. set (ls := nth i (difficulties c) []).
  assert (Ei : py_index (difficulties c) (Z.of_nat i) = Ok ls) by (unfold py_index; rewrite Nat2Z.id, (nth_error_nth' _ [] Hi); reflexivity).
  rewrite (mapM_all_ok _ (fun s => map (full_name g s) (match ls with [] => [LEVEL_2] | _ :: _ => ls end))); [destruct ls; reflexivity|].
  intros s Hs. apply zrange_in in Hs. destruct (names_agree g s Hg Hs) as (Ea & n & Es). rewrite Ei. cbn [bind]. rewrite <- Ea, Es. cbn [bind].
  unfold full_name. rewrite Es. destruct ls; reflexivity.
Qed.
Lemma cpp_one_err c ig : cfg_ok c ig = false -> is_ok (cpp_one c ig) = false.
Proof.
  destruct ig as [i g]. unfold cfg_ok, cpp_one. cbn [fst snd]. intros H. destruct (implemented g); cbn [negb andb] in *; [|reflexivity].
  apply Nat.ltb_ge in H. unfold difficulty_levels. apply nth_error_None in H. now rewrite H.
Qed.
Lemma py_one_err c ig : cfg_ok c ig = false -> is_ok (py_one c ig) = false.
Proof.
  destruct ig as [i g]. unfold cfg_ok, py_one. cbn [fst snd]. intros H. destruct (implemented g) eqn:Hg; cbn [andb] in H.
  - destruct (num_agree g Hg) as [En Hp]. rewrite En. cbn [bind]. apply Nat.ltb_ge in H. apply nth_error_None in H.
    match goal with |- is_ok (bind ?m _) = false => assert (Em : is_ok m = false) end.
    { apply (mapM_some_err _ _ 0); [apply zrange_in; lia|]. unfold py_index. now rewrite Nat2Z.id, H. }
    destruct (mapM _ _); [discriminate|reflexivity].
  - now rewrite (num_unimplemented g Hg).
Qed.
Definition gens_indexed (c : config) : list (nat * genid) := combine (seq 0 (List.length (generators c))) (generators c).
Theorem names_value c :
  (forallb (cfg_ok c) (gens_indexed c) = true -> cpp_names c = Ok (concat (map (gen_names c) (gens_indexed c))) /\ py_names c = Ok (concat (map (gen_names c) (gens_indexed c)))) /\
  (forallb (cfg_ok c) (gens_indexed c) = false -> is_ok (cpp_names c) = false /\ is_ok (py_names c) = false).
Proof.
  change (cpp_names c) with (do ls <- mapM (cpp_one c) (gens_indexed c); Ok (concat ls)).
  change (py_names c) with (do ls <- mapM (py_one c) (gens_indexed c); Ok (concat ls)). split; intros H.
  - rewrite forallb_forall in H. rewrite (mapM_all_ok _ (gen_names c)) by (intros x Hx; apply cpp_one_ok; now apply H).
    rewrite (mapM_all_ok _ (gen_names c)) by (intros x Hx; apply py_one_ok; now apply H). now split.
  - assert (Hx : exists x, In x (gens_indexed c) /\ cfg_ok c x = false).
    { revert H. generalize (gens_indexed c). induction l as [|a l IH]; cbn [forallb]; intros H; [discriminate|].
      destruct (cfg_ok c a) eqn:Ea; [|exists a; split; [now left|exact Ea]]. destruct (IH H) as (x & Hx & E). exists x. split; [now right|exact E]. }
    destruct Hx as (x & Hx & E). split.
    + pose proof (mapM_some_err (cpp_one c) _ x Hx (cpp_one_err c x E)) as M. destruct (mapM _ _); [discriminate|reflexivity].
    + pose proof (mapM_some_err (py_one c) _ x Hx (py_one_err c x E)) as M. destruct (mapM _ _); [discriminate|reflexivity].
Qed.
Theorem names_agree_all c : agree (cpp_names c) (py_names c).
Proof.
  destruct (names_value c) as [A B]. destruct (forallb (cfg_ok c) (gens_indexed c)).
  - destruct (A eq_refl) as [-> ->]. reflexivity.
  - destruct (B eq_refl) as [E1 E2]. destruct (cpp_names c), (py_names c); try discriminate. exact I.
Qed.
(** Names are unique when generators and levels are not repeated. *)
Lemma nodup_concat_map {A B} (f : A -> list B) l : NoDup l -> (forall x, In x l -> NoDup (f x)) ->
  (forall x y b, In x l -> In y l -> In b (f x) -> In b (f y) -> x = y) -> NoDup (concat (map f l)).
Proof.
  induction l as [|a l IH]; intros Hl Hf Hd; cbn [map concat]; [constructor|]. inversion Hl as [|b m N M]; subst.
  apply nodup_app; [apply Hf; now left| |].
  - apply IH; [exact M|intros x Hx; apply Hf; now right|]. intros x y b Hx Hy. apply Hd; now right.
  - intros b Hb Hc. apply in_concat in Hc. destruct Hc as (lb & Hlb & Hbl). apply in_map_iff in Hlb. destruct Hlb as (y & <- & Hy).
    apply N. rewrite (Hd a y b (or_introl eq_refl) (or_intror Hy) Hb Hbl). exact Hy.
Qed.
Lemma nodup_map {A B} (f : A -> B) l : NoDup l -> (forall x y, In x l -> In y l -> f x = f y -> x = y) -> NoDup (map f l).
Proof.
  induction 1 as [|a l N M IH]; intros Hf; cbn [map]; constructor.
  - intros Hin. apply in_map_iff in Hin. destruct Hin as (y & E & Hy). apply N. rewrite <- (Hf y a); [exact Hy|now right|now left|exact E].
  - apply IH. intros x y Hx Hy. apply Hf; now right.
Qed.
Lemma zrange_nodup n : NoDup (zrange n).
Proof. unfold zrange. apply nodup_map; [apply seq_NoDup|]. intros x y _ _. lia. Qed.
Lemma combine_seq_nodup {A} (l : list A) : forall k, NoDup (combine (seq k (List.length l)) l).
Proof.
  induction l as [|a l IH]; intros k; cbn [List.length seq combine]; constructor; [|apply IH].
  intros Hin. apply in_combine_l in Hin. apply in_seq in Hin. lia.
Qed.
Lemma combine_seq_nth {A} (l : list A) i a : forall k, In (i, a) (combine (seq k (List.length l)) l) -> (k <= i)%nat /\ nth_error l (i - k) = Some a.
Proof.
  induction l as [|b l IH]; intros k H; cbn [List.length seq combine] in H; [destruct H|]. destruct H as [E|H].
  - injection E as <- <-. split; [lia|]. now rewrite Nat.sub_diag.
  - destruct (IH _ H) as [A1 A2]. split; [lia|]. replace (i - k)%nat with (S (i - S k)) by lia. exact A2.
Qed.
Theorem names_nodup c names : NoDup (generators c) -> (forall l, In l (difficulties c) -> NoDup l) -> cpp_names c = Ok names -> NoDup names.
Proof.
  intros Hg Hd E. destruct (names_value c) as [A B]. destruct (forallb (cfg_ok c) (gens_indexed c)) eqn:F.
  2: { destruct (B eq_refl) as [E1 _]. rewrite E in E1. discriminate. }
  destruct (A eq_refl) as [E1 _]. rewrite E in E1. apply Ok_inj in E1. subst names. clear A B E. rewrite forallb_forall in F.
  assert (Hin : forall ig b, In ig (gens_indexed c) -> In b (gen_names c ig) -> exists s l, 0 <= s < num_shards (snd ig) /\ b = full_name (snd ig) s l).
  { intros ig b _ Hb. unfold gen_names in Hb. apply in_concat in Hb. destruct Hb as (lb & Hlb & Hb). apply in_map_iff in Hlb. destruct Hlb as (s & <- & Hs).
    apply in_map_iff in Hb. destruct Hb as (l & <- & _). exists s, l. split; [now apply zrange_in|reflexivity]. }
  assert (Himp : forall ig, In ig (gens_indexed c) -> implemented (snd ig) = true).
  { intros ig H. specialize (F ig H). unfold cfg_ok in F. now apply andb_true_iff in F. }
  apply nodup_concat_map.
  - apply combine_seq_nodup.
  - intros ig Hig. unfold gen_names. apply nodup_concat_map; [apply zrange_nodup| |].
    + intros s Hs. apply zrange_in in Hs. apply nodup_map.
      * destruct (nth (fst ig) (difficulties c) []) as [|l ls] eqn:En; [repeat constructor; intros []|]. rewrite <- En. apply Hd. apply nth_In.
        specialize (F ig Hig). unfold cfg_ok in F. apply andb_true_iff in F. destruct F as [_ F]. now apply Nat.ltb_lt in F.
      * intros x y _ _ Exy. now destruct (full_name_inj _ _ _ _ _ _ (Himp _ Hig) (Himp _ Hig) Hs Hs Exy) as (_ & _ & ?).
    + intros s s' b Hs Hs' Hb Hb'. apply zrange_in in Hs, Hs'. apply in_map_iff in Hb, Hb'. destruct Hb as (l & <- & _), Hb' as (l' & E' & _).
      destruct (full_name_inj _ _ _ _ _ _ (Himp _ Hig) (Himp _ Hig) Hs' Hs E') as (_ & H & _). now symmetry.
  - intros [i g] [i' g'] b Hx Hy Hbx Hby. destruct (Hin _ _ Hx Hbx) as (s & l & Hs & E1). destruct (Hin _ _ Hy Hby) as (s' & l' & Hs' & E2).
    rewrite E1 in E2. destruct (full_name_inj _ _ _ _ _ _ (Himp _ Hx) (Himp _ Hy) Hs Hs' E2) as (Eg & _ & _). cbn [snd] in Eg. subst g'.
    apply combine_seq_nth in Hx, Hy. destruct Hx as [_ Hx], Hy as [_ Hy]. rewrite Nat.sub_0_r in Hx, Hy. f_equal.
    apply (NoDup_nth_error (generators c)); [exact Hg|apply nth_error_Some; congruence|congruence].
Qed.
Lemma motion_names_agree dec steps : cpp_motion_names dec steps = py_motion_names dec steps.
Proof.
  unfold cpp_motion_names, py_motion_names.
  assert (G1 : forall t ss acc, fold_left (fun names s => names ++ [cat [t; "_"; dec s]%string]) ss acc = acc ++ map (fun s => cat [t; "_"; dec s]%string) ss).
  { induction ss as [|s ss IH]; intros acc; cbn [fold_left map]; [now rewrite app_nil_r|]. rewrite IH, <- app_assoc. reflexivity. }
  assert (G2 : forall ts acc, fold_left (fun names t => fold_left (fun names s => names ++ [cat [t; "_"; dec s]%string]) steps names) ts acc =
     acc ++ concat (map (fun t => map (fun s => cat [t; "_"; dec s]%string) steps) ts)).
  { induction ts as [|t ts IH]; intros acc; cbn [fold_left map concat]; [now rewrite app_nil_r|]. rewrite IH, G1, <- app_assoc. reflexivity. }
  now rewrite G2.
Qed.
