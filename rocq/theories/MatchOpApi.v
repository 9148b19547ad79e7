From Coq Require Import Sorted Permutation.
From Verif Require Import Base ResultLib ListLib MatcherModel MatchOpModel MatchOpSpec MatchOpProofs MatchOpElement.
Open Scope Z_scope.

Lemma columns_known t d : columns t d -> t <> BOX_UNKNOWN.
Proof. intros [[-> _]|[[-> _]|[-> _]]]; discriminate. Qed.
Lemma combine_maps {A B C} (f : A -> B) (g : A -> C) l : combine (map f l) (map g l) = map (fun a => (f a, g a)) l.
Proof. induction l as [|a l IH]; [reflexivity|]. cbn [map combine]. rewrite IH. reflexivity. Qed.
Lemma mapM_map {A B C} (f : B -> result C) (g : A -> B) l : mapM f (map g l) = mapM (fun a => f (g a)) l.
Proof. induction l as [|a l IH]; [reflexivity|]. cbn [map mapM]. rewrite IH. reflexivity. Qed.
Lemma combine_seq_map {A} (f : nat -> A) n : combine (seq 0 (length (map f (seq 0 n)))) (map f (seq 0 n)) = map (fun b => (b, f b)) (seq 0 n).
Proof. rewrite map_length, seq_length. rewrite <- (map_id (seq 0 n)) at 1. apply combine_maps. Qed.

(** The pairs reported for one element. *)
Definition element_pairs (fns : functions) (thr : Q) (t : box_type) (lc : let_config) (d np ng : nat) (fp fg : nat -> nat -> Q) : list (nat * nat) :=
  match match_boxes (create_config fns thr lc) MATCHER_HUNGARIAN t (objs d np fp) (objs d ng fg) with
  | Ok rs => map (fun r => (prediction_index r, ground_truth_index r)) rs
  | Err _ => []
  end.
Lemma element_pairs_correct fns thr t lc d np ng fp fg : t <> BOX_UNKNOWN -> in_range fns lc d np ng fp fg ->
  let l := element_pairs fns thr t lc d np ng fp fg in
  match_boxes (create_config fns thr lc) MATCHER_HUNGARIAN t (objs d np fp) (objs d ng fg) = Ok (map (row_of fns lc d fp fg) l) /\
  best fns thr t lc d np ng fp fg l /\ StronglySorted lt (map fst l).
Proof.
  intros K I l. destruct (element_correct fns thr t lc d np ng fp fg K I) as (l0 & E & B & S0).
  assert (El : l = l0).
  { unfold l, element_pairs. rewrite E. rewrite map_map. rewrite <- (map_id l0) at 2. apply map_ext. intros [i j]. reflexivity. }
  rewrite El. split; [exact E|]. split; assumption.
Qed.

Lemma compute_correct fns thr t lc nb np ng d fp fg : columns t d ->
  (forall b, (b < nb)%nat -> in_range fns lc d np ng (fp b) (fg b)) ->
  compute fns thr t MATCHER_HUNGARIAN lc {| batch := nb; num := np; dim := d; value := fp |} {| batch := nb; num := ng; dim := d; value := fg |} =
  Ok (assembled fns lc d np ng nb fp fg (fun b => element_pairs fns thr t lc d np ng (fp b) (fg b))).
Proof.
  intros C R. unfold compute. cbn [dim batch num]. rewrite !Nat.eqb_refl. cbn [negb]. rewrite (proj1 (columns_dims t d) C). cbn [negb].
  rewrite (mapM_ok _ (fun b => objs d np (fp b))) by (intros b _; exact (element_ok t {| batch := nb; num := np; dim := d; value := fp |} b C)). cbn [bind].
  rewrite (mapM_ok _ (fun b => objs d ng (fg b))) by (intros b _; exact (element_ok t {| batch := nb; num := ng; dim := d; value := fg |} b C)). cbn [bind].
  rewrite combine_maps, mapM_map. cbn [fst snd].
  rewrite (mapM_ok _ (fun b => map (row_of fns lc d (fp b) (fg b)) (element_pairs fns thr t lc d np ng (fp b) (fg b)))).
  2:{ intros b I. apply in_seq in I. apply element_pairs_correct; [exact (columns_known t d C)|apply R; lia]. }
  cbn [bind]. f_equal. unfold collect, assembled. rewrite combine_seq_map. f_equal; f_equal; rewrite map_map; apply map_ext; intros b; cbn [fst snd]; rewrite map_map; reflexivity.
Qed.

Lemma shape_expand x nb n d : shape_of x = Some (nb, n, d) -> expand x = Rank3 nb n d (contents x).
Proof. destruct x; cbn [shape_of expand contents]; [intros [= <- <- <-]|intros [= -> -> ->]|discriminate]; reflexivity. Qed.
Theorem match_correct fns thr t lc np ng d : columns t d ->
  exists one : (nat -> nat -> Q) -> (nat -> nat -> Q) -> list (nat * nat),
  (forall fp fg, in_range fns lc d np ng fp fg ->
     best fns thr t lc d np ng fp fg (one fp fg) /\ StronglySorted lt (map fst (one fp fg))) /\
  (forall nb x y, shape_of x = Some (nb, np, d) -> shape_of y = Some (nb, ng, d) ->
     (forall b, (b < nb)%nat -> in_range fns lc d np ng (contents x b) (contents y b)) ->
     match_api fns thr t MATCHER_HUNGARIAN lc x y =
     Ok (assembled fns lc d np ng nb (contents x) (contents y) (fun b => one (contents x b) (contents y b)))).
Proof.
  intros C. exists (fun fp fg => element_pairs fns thr t lc d np ng fp fg). split.
  - intros fp fg R. exact (proj2 (element_pairs_correct fns thr t lc d np ng fp fg (columns_known t d C) R)).
  - intros nb x y Sx Sy R. unfold match_api. rewrite (shape_expand _ _ _ _ Sx), (shape_expand _ _ _ _ Sy). cbn [as_boxes bind batch dim].
    rewrite !Nat.eqb_refl. cbn [andb negb]. exact (compute_correct fns thr t lc nb np ng d _ _ C R).
Qed.

(** ** The ids of the whole batch *)
Lemma concat_nodup (n : nat) (f : nat -> list nat) : (forall b, NoDup (f b)) ->
  (forall b b' x, In x (f b) -> In x (f b') -> b = b') -> NoDup (concat (map f (seq 0 n))).
Proof.
  intros N D. assert (G : forall s, NoDup (concat (map f (seq s n)))); [|apply G].
  induction n as [|n IH]; intros s; cbn [seq map concat]; [constructor|].
  specialize (IH (S s)). pose proof (N s) as Ns.
  assert (Dj : forall x, In x (f s) -> ~ In x (concat (map f (seq (S s) n)))).
  { intros x I J. apply in_concat in J as (y & J & X). apply in_map_iff in J as (b & <- & B). apply in_seq in B. pose proof (D _ _ _ I X). lia. }
  revert Ns Dj. generalize (f s). intros l. induction l as [|a l IHl]; intros Ns Dj; [exact IH|]. inversion Ns as [|? ? N1 N2]; subst. cbn [app]. constructor.
  - intros J. apply in_app_or in J as [J|J]; [exact (N1 J)|]. exact (Dj a (or_introl eq_refl) J).
  - apply IHl; [exact N2|]. intros x I. apply Dj. right. exact I.
Qed.
Lemma offset_unique n b b' i i' : (i < n)%nat -> (i' < n)%nat -> (i + b * n = i' + b' * n)%nat -> b = b' /\ i = i'.
Proof. intros L L' E. assert (b = b') by nia. subst b'. split; [reflexivity|lia]. Qed.
Theorem ids_distinct fns thr t lc np ng d nb fp fg pairs :
  (forall b, (b < nb)%nat -> matching fns thr t lc d np ng (fp b) (fg b) (pairs b)) ->
  let r := assembled fns lc d np ng nb fp fg pairs in
  NoDup (prediction_ids r) /\ NoDup (groundtruth_ids r) /\
  length (groundtruth_ids r) = length (prediction_ids r) /\ length (ious r) = length (prediction_ids r) /\
  length (longitudinal_affinities r) = length (prediction_ids r) /\
  (forall k p g, nth_error (prediction_ids r) k = Some p -> nth_error (groundtruth_ids r) k = Some g ->
     exists b i j, (b < nb)%nat /\ p = (i + b * np)%nat /\ g = (j + b * ng)%nat /\ (p / np)%nat = b /\ (g / ng)%nat = b /\ may_match fns thr t lc d np ng (fp b) (fg b) i j /\
       nth_error (ious r) k = Some (overlap fns lc (box_of d (fp b i)) (box_of d (fg b j))) /\
       nth_error (longitudinal_affinities r) k = Some (affinity_of fns lc (box_of d (fp b i)) (box_of d (fg b j)))).
Proof.
  intros M r.
  assert (Flat : forall {A} (f : nat -> nat * nat -> A), concat (map (fun b => map (f b) (pairs b)) (seq 0 nb)) =
    map (fun bij => f (fst bij) (snd bij)) (concat (map (fun b => map (fun ij => (b, ij)) (pairs b)) (seq 0 nb)))).
  { intros A f. rewrite concat_map, map_map. f_equal. apply map_ext. intros b. rewrite map_map. reflexivity. }
  set (all := concat (map (fun b => map (fun ij => (b, ij)) (pairs b)) (seq 0 nb))) in Flat.
  assert (Ha : forall b ij, In (b, ij) all -> (b < nb)%nat /\ In ij (pairs b)).
  { intros b ij I. unfold all in I. apply in_concat in I as (y & I & J). apply in_map_iff in I as (b' & <- & B). apply in_map_iff in J as (ij' & [= <- <-] & J). apply in_seq in B. split; [lia|exact J]. }
  split; [|split; [|split; [|split; [|split]]]].
  - unfold r, assembled. cbn [prediction_ids].
    replace (concat (map (fun b => map (fun ij => (fst ij + b * np)%nat) (pairs b)) (seq 0 nb))) with
      (concat (map (fun b => if Nat.ltb b nb then map (fun ij => (fst ij + b * np)%nat) (pairs b) else []) (seq 0 nb))).
    2:{ f_equal. apply map_ext_in. intros b I. apply in_seq in I. destruct (Nat.ltb_spec b nb); [reflexivity|lia]. }
    apply concat_nodup.
    + intros b. destruct (Nat.ltb_spec b nb) as [L|]; [|constructor]. destruct (M b L) as (_ & N & _).
      replace (map (fun ij : nat * nat => (fst ij + b * np)%nat) (pairs b)) with (map (fun i => (i + b * np)%nat) (map fst (pairs b))) by (rewrite map_map; reflexivity).
      apply FinFun.Injective_map_NoDup; [intros x y E; lia|exact N].
    + intros b b' x I J. destruct (Nat.ltb_spec b nb) as [L|]; [|destruct I]. destruct (Nat.ltb_spec b' nb) as [L'|]; [|destruct J].
      apply in_map_iff in I as ([i j] & <- & I). apply in_map_iff in J as ([i' j'] & E & J). cbn [fst] in E.
      destruct (proj1 (M b L) i j I) as (Li & _). destruct (proj1 (M b' L') i' j' J) as (Li' & _).
      exact (proj1 (offset_unique np b b' i i' Li Li' (eq_sym E))).
  - unfold r, assembled. cbn [groundtruth_ids].
    replace (concat (map (fun b => map (fun ij => (snd ij + b * ng)%nat) (pairs b)) (seq 0 nb))) with
      (concat (map (fun b => if Nat.ltb b nb then map (fun ij => (snd ij + b * ng)%nat) (pairs b) else []) (seq 0 nb))).
    2:{ f_equal. apply map_ext_in. intros b I. apply in_seq in I. destruct (Nat.ltb_spec b nb); [reflexivity|lia]. }
    apply concat_nodup.
    + intros b. destruct (Nat.ltb_spec b nb) as [L|]; [|constructor]. destruct (M b L) as (_ & _ & N).
      replace (map (fun ij : nat * nat => (snd ij + b * ng)%nat) (pairs b)) with (map (fun i => (i + b * ng)%nat) (map snd (pairs b))) by (rewrite map_map; reflexivity).
      apply FinFun.Injective_map_NoDup; [intros x y E; lia|exact N].
    + intros b b' x I J. destruct (Nat.ltb_spec b nb) as [L|]; [|destruct I]. destruct (Nat.ltb_spec b' nb) as [L'|]; [|destruct J].
      apply in_map_iff in I as ([i j] & <- & I). apply in_map_iff in J as ([i' j'] & E & J). cbn [snd] in E.
      destruct (proj1 (M b L) i j I) as (_ & Li & _). destruct (proj1 (M b' L') i' j' J) as (_ & Li' & _).
      exact (proj1 (offset_unique ng b b' j j' Li Li' (eq_sym E))).
  - unfold r, assembled. cbn [prediction_ids groundtruth_ids]. rewrite !Flat, !map_length. reflexivity.
  - unfold r, assembled. cbn [prediction_ids ious]. rewrite !Flat, !map_length. reflexivity.
  - unfold r, assembled. cbn [prediction_ids longitudinal_affinities]. rewrite !Flat, !map_length. reflexivity.
  - intros k p g. unfold r, assembled. cbn [prediction_ids groundtruth_ids ious longitudinal_affinities]. rewrite !Flat, !nth_error_map.
    destruct (nth_error all k) as [[b [i j]]|] eqn:E; [|discriminate]. cbn [option_map fst snd]. intros [= <-] [= <-].
    destruct (Ha _ _ (nth_error_In _ _ E)) as [L I]. exists b, i, j. split; [exact L|]. split; [reflexivity|]. split; [reflexivity|].
    destruct (proj1 (M b L) i j I) as (Li & Lj & _).
    split; [rewrite Nat.div_add, Nat.div_small by lia; reflexivity|]. split; [rewrite Nat.div_add, Nat.div_small by lia; reflexivity|].
    split; [exact (proj1 (M b L) i j I)|]. split; reflexivity.
Qed.

(** ** Rejections *)
Theorem bad_shapes fns thr t m lc x y : ~ shapes_fit t x y -> match_api fns thr t m lc x y = Err ValueError.
Proof.
  intros N. unfold match_api.
  destruct (shape_of x) as [[[nb np] d]|] eqn:Ex; [rewrite (shape_expand _ _ _ _ Ex)|destruct x; try discriminate; reflexivity]. cbn [as_boxes bind].
  destruct (shape_of y) as [[[nb' ng] d']|] eqn:Ey; [rewrite (shape_expand _ _ _ _ Ey)|destruct y; try discriminate; reflexivity]. cbn [as_boxes bind batch dim].
  destruct (Nat.eqb_spec nb nb') as [<-|]; [|reflexivity]. destruct (Nat.eqb_spec d d') as [<-|]; [|reflexivity]. cbn [andb negb].
  unfold compute. cbn [dim batch]. rewrite !Nat.eqb_refl. cbn [negb]. destruct (dims_ok t d) eqn:D; [|reflexivity].
  destruct N. exists nb, np, ng, d. split; [exact Ex|]. split; [exact Ey|]. apply columns_dims, D.
Qed.
Lemma mapM_first_err {A B} (f : A -> result B) l e : l <> [] -> (forall a, In a l -> f a = Err e) -> mapM f l = Err e.
Proof. destruct l as [|a l]; [congruence|]. intros _ H. cbn [mapM]. rewrite (H a (or_introl eq_refl)). reflexivity. Qed.
Theorem other_matchers fns thr t m lc nb np ng d x y : columns t d -> m <> MATCHER_HUNGARIAN ->
  shape_of x = Some (nb, np, d) -> shape_of y = Some (nb, ng, d) ->
  match_api fns thr t m lc x y =
  if Nat.eqb nb 0 then Ok {| prediction_ids := []; groundtruth_ids := []; ious := []; longitudinal_affinities := [] |} else Err CheckFailed.
Proof.
  intros C N Sx Sy. unfold match_api. rewrite (shape_expand _ _ _ _ Sx), (shape_expand _ _ _ _ Sy). cbn [as_boxes bind batch dim].
  generalize (contents x) (contents y). intros fp fg. rewrite !Nat.eqb_refl. cbn [andb negb].
  unfold compute. cbn [dim batch num]. rewrite !Nat.eqb_refl. cbn [negb]. rewrite (proj1 (columns_dims t d) C). cbn [negb].
  rewrite (mapM_ok _ (fun b => objs d np (fp b))) by (intros b _; exact (element_ok t {| batch := nb; num := np; dim := d; value := fp |} b C)). cbn [bind].
  rewrite (mapM_ok _ (fun b => objs d ng (fg b))) by (intros b _; exact (element_ok t {| batch := nb; num := ng; dim := d; value := fg |} b C)). cbn [bind].
  rewrite combine_maps, mapM_map. cbn [fst snd]. destruct (Nat.eqb_spec nb 0) as [->|Q]; [reflexivity|].
  rewrite (mapM_first_err _ _ CheckFailed); [reflexivity| |].
  - destruct nb; [congruence|discriminate].
  - intros b _. pose proof (columns_known t d C) as K. unfold match_boxes. rewrite !(valid_objs t d _ _ K).
    destruct m; [reflexivity|congruence|]. destruct t; [congruence| | |]; reflexivity.
Qed.
(** A configuration that is given but not enabled is the same as none. *)
Theorem disabled_config fns thr t m x y : match_api fns thr t m (Some false) x y = match_api fns thr t m None x y.
Proof. reflexivity. Qed.

Theorem match_ids fns thr t lc np ng d nb x y : columns t d -> shape_of x = Some (nb, np, d) -> shape_of y = Some (nb, ng, d) ->
  (forall b, (b < nb)%nat -> in_range fns lc d np ng (contents x b) (contents y b)) ->
  exists r, match_api fns thr t MATCHER_HUNGARIAN lc x y = Ok r /\
  NoDup (prediction_ids r) /\ NoDup (groundtruth_ids r) /\
  length (groundtruth_ids r) = length (prediction_ids r) /\ length (ious r) = length (prediction_ids r) /\
  length (longitudinal_affinities r) = length (prediction_ids r) /\
  (forall k p g, nth_error (prediction_ids r) k = Some p -> nth_error (groundtruth_ids r) k = Some g ->
     exists b i j, (b < nb)%nat /\ p = (i + b * np)%nat /\ g = (j + b * ng)%nat /\ (p / np)%nat = b /\ (g / ng)%nat = b /\
       may_match fns thr t lc d np ng (contents x b) (contents y b) i j /\
       nth_error (ious r) k = Some (overlap fns lc (box_of d (contents x b i)) (box_of d (contents y b j))) /\
       nth_error (longitudinal_affinities r) k = Some (affinity_of fns lc (box_of d (contents x b i)) (box_of d (contents y b j)))).
Proof.
  intros C Sx Sy R. destruct (match_correct fns thr t lc np ng d C) as (one & B & E). eexists. split; [exact (E nb x y Sx Sy R)|].
  apply (ids_distinct fns thr t lc np ng d nb (contents x) (contents y)). intros b L. exact (proj1 (proj1 (B _ _ (R b L)))).
Qed.
