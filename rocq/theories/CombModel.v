(** The combined keypoint metric: /repo/src/waymo_open_dataset/metrics/python/keypoint_metrics.py 363-378, 385-459,
    657-1063, on top of the single metrics of OksModel.v.

    Simplifications that apply to the whole file:
    - names are lists of characters; thresholds are exact fractions, their formatted values are computed, not a minus zero;
    - a dictionary is a list of pairs with distinct keys in the order of insertion;
    - a sub metric is identified by its position in the list of thresholds; for a threshold given twice the code feeds the
      second sub metric twice, which does not change a mean;
    - every sample has a box. *)
From Coq Require Import Reals QArith Qround Qreals Ascii String DecimalString.
From Verif Require Import Base ResultLib KpModel GeomModel PoseModel OksModel.
Open Scope list_scope.

Definition name := list ascii.
Definition chars (s : string) : name := list_ascii_of_string s.
Definition name_eqb (a b : name) : bool := if list_eq_dec ascii_dec a b then true else false.

(** The format .2f: the number of hundredths, rounded to the nearest, a half to the even one
    (Base.v); the sign of the number itself. *)
Definition digit (n : N) : ascii := ascii_of_N (48 + n).
Definition format_hundredths (h : N) : name :=
  chars (NilEmpty.string_of_uint (N.to_uint (N.div h 100))) ++
  ["."%char; digit (N.div (N.modulo h 100) 10); digit (N.modulo h 10)].
Definition hundredths (q : Q) : N := Z.to_N (round_half_even (Qabs.Qabs q * 100)).
Definition format_2f (q : Q) : name :=
  (if Qlt_le_dec q 0 then ["-"%char] else []) ++ format_hundredths (hundredths q).

(** 857-876 CombinedMetricsConfig. *)
Record config := {
  src_order : list Z; subsets : list (name * list Z); per_type_scales : list (Z * R);
  oks_thresholds : list Q; pck_thresholds : list Q }.
Definition has_scale (c : config) (t : Z) : bool :=
  match dict_get Z.eqb t (per_type_scales c) with Some _ => true | None => false end.
(** 879-892 __post_init__. *)
Definition make_config (c : config) : result config :=
  if negb (forallb (has_scale c) (src_order c)) then Err ValueError
  else if negb (forallb (fun st => forallb (has_scale c) (snd st)) (subsets c)) then Err ValueError
  else Ok c.
(** 894-897 select_scales. *)
Definition select_scales (c : config) (types : list Z) : result (list R) :=
  mapM (fun t => match dict_get Z.eqb t (per_type_scales c) with Some s => Ok s | None => Err KeyError end) types.

(** The metrics of one subset, with their states. *)
Inductive leaf :=
| Mpjpe (nm : name) (st : mean_state)
| Pck (nm : name) (scales : list R) (sts : list mean_state)
| OksAp (nm : name) (scales : list R) (st : ap_state).

(** 366-378 _LayerDictWrapper: the sub metric behind each formatted name. *)
Definition by_name (fmt : Q -> name) (keys : list Q) : list (name * nat) :=
  fold_left (fun d ik => dict_set name_eqb (fmt (snd ik)) (fst ik) d) (combine (seq 0 (length keys)) keys) [].
(** 392, 663: the formats of the names. *)
Definition precision_name (nm : name) (t : Q) : name := nm ++ chars " P @ " ++ format_2f t.
Definition average_name (nm : name) : name := nm ++ chars " AP".
Definition pck_name (nm : name) (t : Q) : name := nm ++ chars " @ " ++ format_2f t.

(** The results: 485-487, 749-752, 452-457. *)
Definition nth_result (sts : list mean_state) (i : nat) : R := mean_result (nth i sts mean_zero).
Definition report (c : config) (l : leaf) : list (name * R) :=
  match l with
  | Mpjpe nm st => [(nm, mean_result st)]
  | Pck nm _ sts => map (fun ni => (fst ni, nth_result sts (snd ni))) (by_name (pck_name nm) (pck_thresholds c))
  | OksAp nm _ st =>
      dict_set name_eqb (average_name nm) (mean_result (average st))
        (map (fun ni => (fst ni, nth_result (precisions st) (snd ni))) (by_name (precision_name nm) (oks_thresholds c)))
  end.

(** 472-483, 729-747, 425-450 with the checks of 342-349. *)
Fixpoint pck_all (two_d : bool) (scales : list R) (kind : weighting) (ts : list Q) (sts : list mean_state) (batch : list sample)
    : result (list mean_state) :=
  match ts, sts with
  | t :: ts, st :: sts =>
      do st <- pck_update two_d {| per_type := Some scales; use_object_scale := true |} true kind (Q2R t) st batch;
      do sts <- pck_all two_d scales kind ts sts batch;
      Ok (st :: sts)
  | _, _ => Ok []
  end.
Definition update_leaf (c : config) (two_d : bool) (kind : weighting) (batch : list sample) (l : leaf) : result leaf :=
  match l with
  | Mpjpe nm st => do st <- mpjpe_update kind st batch; Ok (Mpjpe nm st)
  | Pck nm scales sts => do sts <- pck_all two_d scales kind (pck_thresholds c) sts batch; Ok (Pck nm scales sts)
  | OksAp nm scales st => do st <- ap_update two_d scales (map Q2R (oks_thresholds c)) kind st batch; Ok (OksAp nm scales st)
  end.

(** 765-790 MetricForSubsets: the metric of each subset with the order of its keypoints. *)
Definition group := list (list Z * leaf).
Definition metric_for_subsets (c : config) (create : name -> list Z -> result leaf) : result group :=
  mapM (fun st => do l <- create (fst st) (snd st); Ok (snd st, l)) (subsets c).
(** keypoint_data.py 340-347 subset: the weights are not restricted. *)
Definition subset (src dst : list Z) (s : sample) : result sample :=
  do g <- select_subset (s_gt s) src dst;
  do p <- select_subset (s_pr s) src dst;
  Ok {| s_gt := g; s_pr := p; s_box := s_box s; s_weight := s_weight s |}.
(** 792-812. *)
Definition update_group (c : config) (two_d : bool) (kind : weighting) (batch : list sample) (g : group) : result group :=
  mapM (fun dl => do b <- mapM (subset (src_order c) (fst dl)) batch;
                  do l <- update_leaf c two_d kind b (snd dl);
                  Ok (fst dl, l)) g.

(** 1017-1063 create_combined_metric: the three groups in the order of the returned list. *)
Definition create_mpjpe (s : name) (_ : list Z) : result leaf := Ok (Mpjpe (chars "MPJPE/" ++ s) mean_zero).
Definition create_oks (c : config) (s : name) (types : list Z) : result leaf :=
  do scales <- select_scales c types;
  Ok (OksAp (chars "OKS/" ++ s) scales (ap_zero (map Q2R (oks_thresholds c)))).
Definition create_pck (c : config) (s : name) (types : list Z) : result leaf :=
  do scales <- select_scales c types;
  Ok (Pck (chars "PCK/" ++ s) scales (map (fun _ => mean_zero) (pck_thresholds c))).
Definition create_combined_metric (c : config) : result (list group) :=
  do mpjpe <- metric_for_subsets c create_mpjpe;
  do oks <- metric_for_subsets c (create_oks c);
  do pck <- metric_for_subsets c (create_pck c);
  Ok [mpjpe; pck; oks].

(** 836-849 CombinedMetric._update_state. *)
Definition update_combined (c : config) (two_d : bool) (kind : weighting) (m : list group) (batch : list sample)
    : result (list group) :=
  mapM (update_group c two_d kind batch) m.
(** 755-759 _merge_results, 814-816, 851-853. *)
Definition dict_update {A} (d e : list (name * A)) : list (name * A) :=
  fold_left (fun d kv => dict_set name_eqb (fst kv) (snd kv) d) e d.
Definition merge_results {A} (ds : list (list (name * A))) : list (name * A) := fold_left dict_update ds [].
Definition combined_result (c : config) (m : list group) : list (name * R) :=
  merge_results (map (fun g => merge_results (map (fun dl => report c (snd dl)) g)) m).
(** Create the metric, feed it the batches one after the other and ask for the result. *)
Definition evaluate (c : config) (two_d : bool) (kind : weighting) (batches : list (list sample)) : result (list (name * R)) :=
  do c <- make_config c;
  do m <- create_combined_metric c;
  do m <- foldM (update_combined c two_d kind) batches m;
  Ok (combined_result c m).

(** 47-53 and 30-45 of keypoint_data.py, with the numbers of keypoint.proto 62-85. *)
Definition SHARED_TYPES : list Z := [1; 5; 13; 6; 14; 7; 15; 8; 16; 9; 17; 10; 18]%Z.
Definition CANONICAL_ORDER_CAMERA : list Z := SHARED_TYPES ++ [19%Z].
Definition CANONICAL_ORDER_LASER : list Z := SHARED_TYPES ++ [20%Z].
Definition CANONICAL_ORDER_ALL : list Z := SHARED_TYPES ++ [19; 20]%Z.
(** 914-930. *)
Definition DEFAULT_PER_TYPE_SCALES : list (Z * R) :=
  (map (fun tn => (fst tn, snd tn / 1000))
    [(1%Z, 52); (5%Z, 158); (13%Z, 158); (6%Z, 144); (14%Z, 144); (7%Z, 124); (15%Z, 124); (8%Z, 214); (16%Z, 214);
     (9%Z, 174); (17%Z, 174); (10%Z, 178); (18%Z, 178); (19%Z, 158); (20%Z, 158)])%R.
(** 381, 654. *)
Definition DEFAULT_OKS_THRESHOLDS : list Q := map (fun n => n # 100) [50; 55; 60; 65; 70; 75; 80; 85; 90; 95]%Z.
Definition DEFAULT_PCK_THRESHOLDS : list Q := map (fun n => n # 100) [5; 10; 20; 30; 40; 50]%Z.
(** 933-986: the shared groups, then ALL and HEAD. *)
Definition SHARED_GROUPS : list (name * list Z) :=
  [(chars "SHOULDERS", [5; 13]); (chars "ELBOWS", [6; 14]); (chars "WRISTS", [7; 15]);
   (chars "HIPS", [8; 16]); (chars "KNEES", [9; 17]); (chars "ANKLES", [10; 18])]%Z.
Definition canonical_groups (order head : list Z) : list (name * list Z) :=
  SHARED_GROUPS ++ [(chars "ALL", order); (chars "HEAD", head)].
(** 988-1014. *)
Definition default_config (order head : list Z) : config :=
  {| src_order := order; subsets := canonical_groups order head; per_type_scales := DEFAULT_PER_TYPE_SCALES;
     oks_thresholds := DEFAULT_OKS_THRESHOLDS; pck_thresholds := DEFAULT_PCK_THRESHOLDS |}.
Definition DEFAULT_CONFIG_CAMERA : config := default_config CANONICAL_ORDER_CAMERA [1; 19]%Z.
Definition DEFAULT_CONFIG_LASER : config := default_config CANONICAL_ORDER_LASER [1; 20]%Z.
Definition DEFAULT_CONFIG_ALL : config := default_config CANONICAL_ORDER_ALL [1; 19; 20]%Z.
