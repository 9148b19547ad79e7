(** What the combined keypoint metric should report. Shared with the model: the configuration, the names as lists of
    characters, the formatted thresholds and the single metrics of OksModel.v. *)
From Coq Require Import Reals QArith Qreals Ascii String.
From Verif Require Import Base ResultLib KpSpec GeomModel PoseModel OksModel CombModel.
Open Scope list_scope.

Definition text (s : string) : name := list_ascii_of_string s.

(** A mapping has each key once. *)
Definition mappings (c : config) : Prop := NoDup (map fst (subsets c)) /\ NoDup (map fst (per_type_scales c)).
Definition has_a_scale (c : config) (t : Z) : Prop := exists s, In (t, s) (per_type_scales c).
Definition acceptable (c : config) : Prop :=
  (forall t, In t (src_order c) -> has_a_scale c t) /\ (forall s types t, In (s, types) (subsets c) -> In t types -> has_a_scale c t).

(** The names of the results in their order. *)
Definition mpjpe_key (s : name) : name := text "MPJPE/" ++ s.
Definition pck_key (s : name) (t : Q) : name := text "PCK/" ++ s ++ text " @ " ++ format_2f t.
Definition oks_key (s : name) (t : Q) : name := text "OKS/" ++ s ++ text " P @ " ++ format_2f t.
Definition ap_key (s : name) : name := text "OKS/" ++ s ++ text " AP".
Definition expected_keys (c : config) : list name :=
  map mpjpe_key (map fst (subsets c)) ++
  flat_map (fun s => map (pck_key s) (pck_thresholds c)) (map fst (subsets c)) ++
  flat_map (fun s => map (oks_key s) (oks_thresholds c) ++ [ap_key s]) (map fst (subsets c)).
(** No two thresholds of a metric are written alike. *)
Definition told_apart (ts : list Q) : Prop := NoDup (map format_2f ts).

(** [n] hundredths are the nearest to [q], the even number if two are. *)
Definition nearest_hundredths (q : Q) (n : Z) : Prop :=
  (inject_Z n - (1 # 2) <= 100 * Qabs.Qabs q <= inject_Z n + (1 # 2))%Q /\
  ((100 * Qabs.Qabs q == inject_Z n - (1 # 2) \/ 100 * Qabs.Qabs q == inject_Z n + (1 # 2))%Q -> Z.even n = true).

(** [s'] is the sample [s] with the keypoints of the given types only, in that order. *)
Definition picked (src dst : list Z) (ks ks' : list keypoint) : Prop :=
  Forall2 (fun t k => last_with (fun tk => fst tk = t) (combine src ks) (t, k)) dst ks'.
Definition restricted (src dst : list Z) (s s' : sample) : Prop :=
  picked src dst (s_gt s) (s_gt s') /\ picked src dst (s_pr s) (s_pr s') /\ s_box s' = s_box s /\ s_weight s' = s_weight s.

(** [v] is the value to report under the name [k]: that of a metric of its own, fed the restricted batches. *)
Definition value (c : config) (two_d : bool) (kind : weighting) (batches : list (list sample)) (k : name) (v : R) : Prop :=
  exists s dst seen scales, In (s, dst) (subsets c) /\ Forall2 (Forall2 (restricted (src_order c) dst)) batches seen /\
    Forall2 (fun t x => In (t, x) (per_type_scales c)) dst scales /\
  ((k = mpjpe_key s /\ exists st, foldM (mpjpe_update kind) seen mean_zero = Ok st /\ v = mean_result st) \/
   (exists t, In t (pck_thresholds c) /\ k = pck_key s t /\
      exists st, foldM (pck_update two_d {| per_type := Some scales; use_object_scale := true |} true kind (Q2R t)) seen mean_zero = Ok st /\
        v = mean_result st) \/
   (exists t, In t (oks_thresholds c) /\ k = oks_key s t /\
      exists st a, foldM (ap_update two_d scales [Q2R t] kind) seen (ap_zero [Q2R t]) = Ok {| precisions := [st]; average := a |} /\ v = mean_result st) \/
   (k = ap_key s /\ exists st, foldM (ap_update two_d scales (map Q2R (oks_thresholds c)) kind) seen (ap_zero (map Q2R (oks_thresholds c))) = Ok st /\
      v = mean_result (average st))).

(** Every sample has a keypoint of each source type, and every subset is a part of them. *)
Definition well_shaped (c : config) (batches : list (list sample)) : Prop :=
  (forall s types, In (s, types) (subsets c) -> types <> [] /\ incl types (src_order c)) /\
  (forall b x, In b batches -> In x b -> length (s_gt x) = length (src_order c) /\ length (s_pr x) = length (src_order c)).
