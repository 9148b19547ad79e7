(** The default configurations of the combined metric, and configurations that lose results or never give one. *)
From Coq Require Import Reals QArith Qreals Ascii String.
From Verif Require Import Base ResultLib ListLib MonadLib KpModel KpSpec KpProofs GeomModel PoseModel OksModel CombModel CombSpec CombNames CombProofs CombResults.
Open Scope list_scope.

Fixpoint nodupb {A} (eqb : A -> A -> bool) (l : list A) : bool :=
  match l with [] => true | a :: l => negb (existsb (eqb a) l) && nodupb eqb l end.
Lemma nodupb_ok {A} (eqb : A -> A -> bool) (E : forall a b, eqb a b = true <-> a = b) l : nodupb eqb l = true -> NoDup l.
Proof.
  induction l as [|a l IH]; cbn [nodupb]; intros H; [constructor|]. apply andb_true_iff in H. destruct H as (H1 & H2). constructor; [|now apply IH].
  intros Hin. apply negb_true_iff in H1. assert (existsb (eqb a) l = true) by (apply existsb_exists; exists a; split; [exact Hin|now apply E]). congruence.
Qed.
Definition DEFAULTS : list config := [DEFAULT_CONFIG_CAMERA; DEFAULT_CONFIG_LASER; DEFAULT_CONFIG_ALL].
Lemma default_mappings c : In c DEFAULTS -> mappings c.
Proof.
  intros H. split.
  - apply (nodupb_ok name_eqb name_eqb_eq). destruct H as [<-|[<-|[<-|[]]]]; reflexivity.
  - apply (nodupb_ok Z.eqb Z.eqb_eq). destruct H as [<-|[<-|[<-|[]]]]; reflexivity.
Qed.
Lemma default_acceptable c : In c DEFAULTS -> acceptable c.
Proof.
  intros H. pose proof (default_mappings c H) as M. apply (config_inv c c M). destruct H as [<-|[<-|[<-|[]]]]; reflexivity.
Qed.
Lemma default_apart c : In c DEFAULTS -> told_apart (pck_thresholds c) /\ told_apart (oks_thresholds c).
Proof.
  intros H. unfold told_apart. split; apply (nodupb_ok name_eqb name_eqb_eq); destruct H as [<-|[<-|[<-|[]]]]; vm_compute; reflexivity.
Qed.
Lemma default_subsets c s types : In c DEFAULTS -> In (s, types) (subsets c) -> types <> [] /\ incl types (src_order c).
Proof.
  intros H Hs. assert (forallb (fun st : name * list Z => negb (match snd st with [] => true | _ => false end) && forallb (fun t => existsb (Z.eqb t) (src_order c)) (snd st)) (subsets c) = true) as W
    by (destruct H as [<-|[<-|[<-|[]]]]; reflexivity).
  rewrite forallb_forall in W. specialize (W _ Hs). cbn [snd] in W. apply andb_true_iff in W. destruct W as (W1 & W2). split; [destruct types; discriminate|].
  rewrite forallb_forall in W2. intros t Ht. specialize (W2 t Ht). apply existsb_exists in W2. destruct W2 as (t' & Hin & E). apply Z.eqb_eq in E. now subst.
Qed.
Theorem defaults c two_d batches : In c [DEFAULT_CONFIG_CAMERA; DEFAULT_CONFIG_LASER; DEFAULT_CONFIG_ALL] ->
  (forall b x, In b batches -> In x b -> length (s_gt x) = length (src_order c) /\ length (s_pr x) = length (src_order c)) ->
  exists d, evaluate c two_d Unweighted batches = Ok d /\ map fst d = expected_keys c /\ NoDup (map fst d) /\ length d = 144%nat.
Proof.
  intros H W. pose proof (default_mappings c H) as M. destruct (default_apart c H) as (Tp & To).
  destruct (unweighted_result c two_d batches M (default_acceptable c H)) as (d & E); [split; [intros s types; now apply default_subsets|exact W]|].
  exists d. split; [exact E|]. pose proof (reported_in_order c two_d Unweighted batches d M Tp To E) as K. split; [exact K|]. split; [rewrite K; now apply keys_distinct|].
  rewrite <- (map_length fst d), K. rewrite expected_length. destruct H as [<-|[<-|[<-|[]]]]; reflexivity.
Qed.
Theorem defaults_weighted c two_d kind batches b x : In c [DEFAULT_CONFIG_CAMERA; DEFAULT_CONFIG_LASER; DEFAULT_CONFIG_ALL] -> In b batches -> In x b ->
  kind = PerObject \/ kind = PerPoint /\ length (s_weight x) = length (src_order c) -> forall d, evaluate c two_d kind batches <> Ok d.
Proof.
  intros H Hb Hx Hk d. pose proof (default_mappings c H) as M.
  assert (In (chars "HIPS", [8; 16]%Z) (subsets c) /\ (2 < length (src_order c))%nat) as (Hs & L) by (destruct H as [<-|[<-|[<-|[]]]]; (split; [cbn [subsets DEFAULT_CONFIG_CAMERA DEFAULT_CONFIG_LASER DEFAULT_CONFIG_ALL default_config canonical_groups SHARED_GROUPS app In]; auto 8|cbn; lia])).
  destruct Hk as [->|(-> & Lw)].
  - exact (object_weights_refused c two_d batches _ _ b M Hs Hb d).
  - apply (point_weights_refused c two_d batches _ _ b x M Hs Hb Hx Lw); cbn [length]; lia.
Qed.

(** Two thresholds with the same name. *)
Definition fine_config (ts : list Q) : config :=
  {| src_order := [1; 5]%Z; subsets := [(chars "ALL", [1; 5]%Z)]; per_type_scales := [(1%Z, 1%R); (5%Z, 1%R)]; oks_thresholds := ts; pck_thresholds := ts |}.
Lemma fine_fine ts : mappings (fine_config ts) /\ acceptable (fine_config ts) /\ well_shaped (fine_config ts) [].
Proof.
  assert (mappings (fine_config ts)) as M by (split; [apply (nodupb_ok name_eqb name_eqb_eq)|apply (nodupb_ok Z.eqb Z.eqb_eq)]; reflexivity).
  split; [exact M|]. split; [apply (config_inv _ (fine_config ts) M); reflexivity|]. split; [|intros b x []]. intros s types [H|[]]. injection H as <- <-. split; [discriminate|apply incl_refl].
Qed.
Theorem threshold_lost_refuted : ~ (forall c two_d batches d, mappings c -> acceptable c -> NoDup (pck_thresholds c) -> NoDup (oks_thresholds c) ->
  evaluate c two_d Unweighted batches = Ok d -> length d = (length (subsets c) * (length (pck_thresholds c) + length (oks_thresholds c) + 2))%nat).
Proof.
  intros H. set (ts := [501 # 1000; 502 # 1000]). destruct (fine_fine ts) as (M & A & W). destruct (unweighted_result _ false [] M A W) as (d & E).
  assert (NoDup ts) as N by (constructor; [intros [Q|[]]; discriminate|constructor; [intros []|constructor]]).
  specialize (H (fine_config ts) false [] d M A N N E). apply (proj2 (reported_all _ _ _ _ d M ltac:(discriminate) E)) in H. destruct H as (H & _).
  unfold told_apart in H. vm_compute in H. inversion H as [|x l Hx]. apply Hx. now left.
Qed.
(** A subset of keypoints that the input does not have. *)
Definition stray_config : config :=
  {| src_order := [1%Z]; subsets := [(chars "HEAD", [1; 20]%Z)]; per_type_scales := [(1%Z, 1%R); (20%Z, 1%R)]; oks_thresholds := []; pck_thresholds := [] |}.
Theorem checked_subsets_refuted : ~ (forall c, mappings c -> make_config c = Ok c -> forall s types, In (s, types) (subsets c) -> incl types (src_order c)).
Proof.
  intros H. assert (mappings stray_config) as M by (split; [apply (nodupb_ok name_eqb name_eqb_eq)|apply (nodupb_ok Z.eqb Z.eqb_eq)]; reflexivity).
  specialize (H stray_config M eq_refl _ _ (or_introl eq_refl) 20%Z (or_intror (or_introl eq_refl))). destruct H as [H|[]]. discriminate.
Qed.
