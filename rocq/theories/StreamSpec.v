(** What the streaming metric ops are for: accumulate batches, update once, report by name. *)
From Coq Require Import String Ascii.
From Verif Require Import Base StreamModel.
Open Scope list_scope.

(** ** Accumulation *)

(** The fields of a batch with the sizes after the first of each tensor. *)
Definition layout := list (string * list nat).
Definition layout_ok (l : layout) : Prop := NoDup (map fst l) /\ forall x t, In (x, t) l -> (0 < size t)%nat.
(** The declaration that goes with a layout: no rows yet. *)
Definition declares (l : layout) (d : list (string * list Z)) : Prop :=
  d = map (fun f => (fst f, 0%Z :: map Z.of_nat (snd f))) l.
(** A batch: one tensor per field, any number of rows each. *)
Definition batch_ok (l : layout) (b : list (string * tensor)) : Prop :=
  Forall2 (fun f nt => fst f = fst nt /\ exists n, shape (snd nt) = n :: snd f /\ length (data (snd nt)) = (n * size (snd f))%nat) l b.
Definition first_dim (t : tensor) : nat := match shape t with [] => 0%nat | n :: _ => n end.

Definition same_family (f g : family) : bool :=
  match f, g with Detection, Detection | Tracking, Tracking | MotionFamily, MotionFamily => true | _, _ => false end.
(** The tensors given to field [x] of one batch. *)
Definition given (x : string) (b : list (string * tensor)) : list tensor :=
  map snd (filter (fun nt => String.eqb (fst nt) x) b).
(** The tensors given to field [x] of a family since its variables were last initialised. *)
Fixpoint fed (f : family) (x : string) (h : list event) (acc : list tensor) : list tensor :=
  match h with
  | [] => acc
  | Init g _ :: h' => fed f x h' (if same_family f g then [] else acc)
  | Feed g _ b :: h' => fed f x h' (if same_family f g then acc ++ given x b else acc)
  end.
(** The same for the batches given to one call only. *)
Fixpoint fed_to_call (f : family) (c : nat) (x : string) (h : list event) (acc : list tensor) : list tensor :=
  match h with
  | [] => acc
  | Init g _ :: h' => fed_to_call f c x h' (if same_family f g then [] else acc)
  | Feed g c' b :: h' => fed_to_call f c x h' (if same_family f g && Nat.eqb c c' then acc ++ given x b else acc)
  end.
Definition all_rows (t : list nat) (l : list tensor) : tensor :=
  Tensor (list_sum (map first_dim l) :: t) (concat (map data l)).

(** A history in which the batches have the layouts and nothing is updated before it is
    initialised. *)
Definition event_ok (ls : family -> layout) (e : event) : Prop :=
  match e with Init f d => declares (ls f) d | Feed f _ b => batch_ok (ls f) b end.
Definition history_ok (ls : family -> layout) (h : list event) : Prop :=
  (forall e, In e h -> event_ok ls e) /\
  (forall h1 f c b h2, h = h1 ++ Feed f c b :: h2 -> exists d, In (Init f d) h1).

(** ** The metrics *)

Definition slash : ascii := "/"%char.
Definition no_slash (s : string) : Prop := ~ In slash (list_ascii_of_string s).
Definition kept (filter : option string) (name : string) : Prop :=
  match filter with None => True | Some f => exists a b, name = (a ++ f ++ b)%string end.
(** [i] is the last position of [name]. *)
Definition last_at (names : list string) (name : string) (i : nat) : Prop :=
  nth_error names i = Some name /\ forall j, nth_error names j = Some name -> (j <= i)%nat.
(** [i] is the first position of a kept name. *)
Definition first_kept (filter : option string) (names : list string) (i : nat) : Prop :=
  (exists name, nth_error names i = Some name /\ kept filter name) /\
  forall j name, (j < i)%nat -> nth_error names j = Some name -> ~ kept filter name.
(** The metrics of one breakdown: the name, the output and the value of each; the first carries
    the update when [u] holds. *)
Definition carries (P : Prop) (u : update_op) : Prop := u = UpdateOp <-> P.

Definition detection_entry (show : Q -> string) (recall : option Q) (i : nat) (P : Prop) (m : string) (v : value_op * update_op) : Prop :=
  (m = "AP" /\ fst v = Element "ap" i /\ carries P (snd v))%string \/
  (m = "APH" /\ v = (Element "aph" i, NoOp))%string \/
  (m = "APL" /\ v = (Element "apl" i, NoOp))%string \/
  (exists p, recall = Some p /\ m = ("Recall@" ++ show p)%string /\ v = (RecallAt p i, NoOp)).
Definition tracking_entry (i : nat) (P : Prop) (m : string) (v : value_op * update_op) : Prop :=
  (m = "MOTA" /\ fst v = Element "mota" i /\ carries P (snd v))%string \/
  (m = "MOTP" /\ v = (Element "motp" i, NoOp))%string \/
  (m = "MISS" /\ v = (Element "miss" i, NoOp))%string \/
  (m = "MISMATCH" /\ v = (Element "mismatch" i, NoOp))%string \/
  (m = "FP" /\ v = (Element "fp" i, NoOp))%string.
Definition motion_entry (i : nat) (P : Prop) (m : string) (v : value_op * update_op) : Prop :=
  (m = "minADE" /\ fst v = Element "min_ade" i /\ carries P (snd v))%string \/
  (m = "minFDE" /\ v = (Element "min_fde" i, NoOp))%string \/
  (m = "MissRate" /\ v = (Element "miss_rate" i, NoOp))%string \/
  (m = "OverlapRate" /\ v = (Element "overlap_rate" i, NoOp))%string \/
  (m = "mAP" /\ v = (Element "mean_average_precision" i, NoOp))%string.

(** The dictionary has exactly the metrics of the kept names, at the last position of each. *)
Definition reports (d : dict) (filter : option string) (names : list string)
  (entry : nat -> Prop -> string -> value_op * update_op -> Prop) : Prop :=
  forall k v, get_key d k = Some v <->
    exists name i m, last_at names name i /\ kept filter name /\ k = key name m /\ entry i (first_kept filter names i) m v.

(** ** Recall at a precision *)
Open Scope Q_scope.
Definition best_recall (p : Q) (pr : list (Q * Q)) (v : Q) : Prop :=
  (forall x, In x pr -> p < fst x -> snd x <= v) /\
  ((exists x, In x pr /\ p < fst x /\ snd x = v) \/ (v = 0 /\ forall x, In x pr -> p < fst x -> snd x == 0)).

(** ** Motion shapes *)
Open Scope Z_scope.
(** The shapes of the documentation: B scenarios, M groups of N agents, K predictions, TP and TG
    steps, A ground truth agents. *)
Definition documented (b : option Z) (m k n tp tg a : Z) (ids : bool) : motion_shapes := {|
  s_prediction_trajectory := [b; Some m; Some k; Some n; Some tp; Some 2];
  s_prediction_score := [b; Some m; Some k];
  s_ground_truth_trajectory := [b; Some a; Some tg; Some 7];
  s_ground_truth_is_valid := [b; Some a; Some tg];
  s_prediction_ground_truth_indices := [b; Some m; Some n];
  s_prediction_ground_truth_indices_mask := [b; Some m; Some n];
  s_object_type := [b; Some a];
  s_object_id := if ids then Some [b; Some a] else None |}.

(** ** The fields of the three functions *)
Open Scope string_scope.
(** Numbers of a box of each type, as documented. *)
Definition box_width (b : box_type) : nat := match b with BOX_3D => 7 | BOX_2D => 5 | BOX_AA_2D => 4 | BOX_UNKNOWN => 0 end.
Definition detection_fields (d : nat) : layout :=
  [("prediction_frame_id", []); ("prediction_bbox", [d]); ("prediction_type", []); ("prediction_score", []); ("prediction_overlap_nlz", []);
   ("ground_truth_frame_id", []); ("ground_truth_bbox", [d]); ("ground_truth_type", []); ("ground_truth_difficulty", []); ("ground_truth_speed", [2%nat])].
Definition tracking_fields (d : nat) : layout :=
  [("prediction_bbox", [d]); ("prediction_type", []); ("prediction_score", []); ("prediction_frame_id", []); ("prediction_sequence_id", []);
   ("prediction_object_id", []); ("ground_truth_bbox", [d]); ("ground_truth_type", []); ("ground_truth_frame_id", []); ("ground_truth_sequence_id", []);
   ("ground_truth_object_id", []); ("ground_truth_difficulty", []); ("prediction_overlap_nlz", []); ("ground_truth_speed", [2%nat])].
Definition motion_fields (m k n tp tg : nat) : layout :=
  [("ground_truth_trajectory", [n; tg; 7%nat]); ("ground_truth_is_valid", [n; tg]); ("prediction_trajectory", [m; k; n; tp; 2%nat]);
   ("prediction_score", [m; k]); ("prediction_ground_truth_indices", [m; n]); ("prediction_ground_truth_indices_mask", [m; n]);
   ("object_type", [n]); ("object_id", [n]); ("scenario_id", [])].
(** A field of a batch that is fed is the argument of that name. *)
Definition argument_or (o : option tensor) (missing : tensor -> Prop) (t : tensor) : Prop :=
  match o with Some a => t = a | None => missing t end.
(** Speed zero for every box, no overlap for every prediction. *)
Definition still (boxes t : tensor) : Prop :=
  exists n rest, shape boxes = n :: rest /\ shape t = [n; 2%nat] /\ length (data t) = (n * 2)%nat /\ forall c, In c (data t) -> c = CF 0.
Definition outside (frames t : tensor) : Prop :=
  shape t = shape frames /\ length (data t) = length (data frames) /\ forall c, In c (data t) -> c = CB false.
(** Agents numbered from 0 in every scenario; scenarios named by their number in the batch. *)
Definition numbered_agents (n : nat) (trajectories t : tensor) : Prop :=
  exists b rest, shape trajectories = b :: rest /\ shape t = [b; n] /\ length (data t) = (b * n)%nat /\
    forall i j, (i < b)%nat -> (j < n)%nat -> nth_error (data t) (i * n + j) = Some (CI (Z.of_nat j)).
Definition numbered_scenarios (dec : Z -> string) (trajectories t : tensor) : Prop :=
  exists b rest, shape trajectories = b :: rest /\ shape t = [b] /\ length (data t) = b /\
    forall i, (i < b)%nat -> nth_error (data t) i = Some (CS (dec (Z.of_nat i))).
Definition detection_feeds (x : detection_batch) (b : list (string * tensor)) : Prop :=
  exists speed, argument_or (d_ground_truth_speed x) (still (d_ground_truth_bbox x)) speed /\ NoDup (map fst b) /\
  forall n t, In (n, t) b <->
    (n = "prediction_frame_id" /\ t = d_prediction_frame_id x) \/ (n = "prediction_bbox" /\ t = d_prediction_bbox x) \/
    (n = "prediction_type" /\ t = d_prediction_type x) \/ (n = "prediction_score" /\ t = d_prediction_score x) \/
    (n = "prediction_overlap_nlz" /\ t = d_prediction_overlap_nlz x) \/ (n = "ground_truth_frame_id" /\ t = d_ground_truth_frame_id x) \/
    (n = "ground_truth_bbox" /\ t = d_ground_truth_bbox x) \/ (n = "ground_truth_type" /\ t = d_ground_truth_type x) \/
    (n = "ground_truth_difficulty" /\ t = d_ground_truth_difficulty x) \/ (n = "ground_truth_speed" /\ t = speed).
Definition tracking_feeds (x : tracking_batch) (b : list (string * tensor)) : Prop :=
  exists speed nlz, argument_or (t_ground_truth_speed x) (still (t_ground_truth_bbox x)) speed /\
  argument_or (t_prediction_overlap_nlz x) (outside (t_prediction_frame_id x)) nlz /\ NoDup (map fst b) /\
  forall n t, In (n, t) b <->
    (n = "prediction_bbox" /\ t = t_prediction_bbox x) \/ (n = "prediction_type" /\ t = t_prediction_type x) \/
    (n = "prediction_score" /\ t = t_prediction_score x) \/ (n = "prediction_frame_id" /\ t = t_prediction_frame_id x) \/
    (n = "prediction_sequence_id" /\ t = t_prediction_sequence_id x) \/ (n = "prediction_object_id" /\ t = t_prediction_object_id x) \/
    (n = "ground_truth_bbox" /\ t = t_ground_truth_bbox x) \/ (n = "ground_truth_type" /\ t = t_ground_truth_type x) \/
    (n = "ground_truth_frame_id" /\ t = t_ground_truth_frame_id x) \/ (n = "ground_truth_sequence_id" /\ t = t_ground_truth_sequence_id x) \/
    (n = "ground_truth_object_id" /\ t = t_ground_truth_object_id x) \/ (n = "ground_truth_difficulty" /\ t = t_ground_truth_difficulty x) \/
    (n = "prediction_overlap_nlz" /\ t = nlz) \/ (n = "ground_truth_speed" /\ t = speed).
Definition motion_feeds (dec : Z -> string) (num_agents : nat) (x : motion_batch) (b : list (string * tensor)) : Prop :=
  exists ids scenarios, argument_or (m_object_id x) (numbered_agents num_agents (m_prediction_trajectory x)) ids /\
  argument_or (m_scenario_id x) (numbered_scenarios dec (m_prediction_trajectory x)) scenarios /\ NoDup (map fst b) /\
  forall n t, In (n, t) b <->
    (n = "ground_truth_trajectory" /\ t = m_ground_truth_trajectory x) \/ (n = "ground_truth_is_valid" /\ t = m_ground_truth_is_valid x) \/
    (n = "prediction_trajectory" /\ t = m_prediction_trajectory x) \/ (n = "prediction_score" /\ t = m_prediction_score x) \/
    (n = "prediction_ground_truth_indices" /\ t = m_prediction_ground_truth_indices x) \/
    (n = "prediction_ground_truth_indices_mask" /\ t = m_prediction_ground_truth_indices_mask x) \/
    (n = "object_type" /\ t = m_object_type x) \/ (n = "object_id" /\ t = ids) \/ (n = "scenario_id" /\ t = scenarios).
Open Scope Z_scope.
(** The static sizes agree: of the ground truth and the indices with those of the predictions. *)
Definition agreeing (x : motion_shapes) (m k n tp tg : option Z) : Prop :=
  (exists b, s_prediction_trajectory x = [b; m; k; n; tp; Some 2]) /\ (exists b, s_ground_truth_trajectory x = [b; n; tg; Some 7]) /\
  nth_error (s_ground_truth_is_valid x) 1 = Some n /\ nth_error (s_ground_truth_is_valid x) 2 = Some tg /\
  nth_error (s_prediction_ground_truth_indices x) 1 = Some m /\ nth_error (s_prediction_ground_truth_indices x) 2 = Some n /\
  nth_error (s_prediction_ground_truth_indices_mask x) 1 = Some m /\ nth_error (s_prediction_ground_truth_indices_mask x) 2 = Some n /\
  nth_error (s_prediction_score x) 1 = Some m /\ nth_error (s_prediction_score x) 2 = Some k /\
  nth_error (s_object_type x) 1 = Some n /\ forall t, s_object_id x = Some t -> nth_error t 1 = Some n.
