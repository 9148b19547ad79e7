(** Streaming metric ops: src/waymo_open_dataset/metrics/python/detection_metrics.py,
    tracking_metrics.py and motion_metrics.py.

    Conventions.
    - A tensor is its shape and its elements in row major order; dtypes are not checked. Floats are
      rationals.
    - Errors: ValueError stands for every error TensorFlow reports for a reshape, concat or constant
      that cannot be done; RuntimeError for reading a variable that was not initialised.
    - The graph is run one session.run at a time. tf.group runs its members in any order; they write
      different variables, and the model runs them in the order of the dictionary. What is left in
      the other variables when one member fails is not modelled.
    - What the metric kernels compute from the variables is in other models; here their outputs are
      an argument. *)
From Coq Require Import String Ascii.
From Verif Require Import Base ResultLib BreakdownModel.
Open Scope list_scope.
Open Scope Z_scope.

(** An element of a tensor: float32, integer, bool or string. *)
Inductive cell := CF (q : Q) | CI (z : Z) | CB (b : bool) | CS (s : string).
Record tensor := Tensor { shape : list nat; data : list cell }.
Definition size (sh : list nat) : nat := fold_right Nat.mul 1%nat sh.

(** ** The variables *)

(** tf.reshape(v.value(), [-1] + rest) (detection_metrics.py:50-51, tracking_metrics.py:50-51,
    motion_metrics.py:49-50): the size for -1 is inferred; TensorFlow refuses to when the other
    sizes multiply to zero, and when they do not divide the number of elements. *)
Definition reshape_rows (v : tensor) (rest : list nat) : result tensor :=
  let n := size rest in
  if Nat.eqb n 0 then Err ValueError
  else if negb (Nat.eqb (length (data v) mod n) 0) then Err ValueError
  else Ok (Tensor ((length (data v) / n)%nat :: rest) (data v)).
Fixpoint same_shape (a b : list nat) : bool :=
  match a, b with
  | [], [] => true
  | x :: a', y :: b' => Nat.eqb x y && same_shape a' b'
  | _, _ => false
  end.
(** tf.concat([a, b], axis=0): ranks at least 1, equal sizes after the first. *)
Definition concat_rows (a b : tensor) : result tensor :=
  match shape a, shape b with
  | n :: ra, m :: rb => if same_shape ra rb then Ok (Tensor ((n + m)%nat :: ra) (data a ++ data b)) else Err ValueError
  | _, _ => Err ValueError
  end.
(** The value _update assigns (detection_metrics.py:50-53, tracking_metrics.py:50-53,
    motion_metrics.py:49-52). *)
Definition updated (v u : tensor) : result tensor :=
  do v' <- reshape_rows v (tl (shape u)); concat_rows v' u.

(** The three functions and the variable_scope each one uses (detection_metrics.py:37-38,
    tracking_metrics.py:37-38, motion_metrics.py:36-37). *)
Inductive family := Detection | Tracking | MotionFamily.
Definition scope (f : family) : string :=
  (match f with Detection => "detection_metrics" | Tracking => "tracking_metrics" | MotionFamily => "motion_metrics" end)%string.
(** get_local_variable in a scope with AUTO_REUSE: the variable is found by its full name, so every
    call of the same function in one graph gets the same variables. *)
Definition variable_name (f : family) (name : string) : string := (scope f ++ "/" ++ name)%string.

(** The values of the variables of the graph; None is not initialised. *)
Definition store := string -> option tensor.
Definition put (s : store) (k : string) (t : tensor) : store := fun k' => if String.eqb k' k then Some t else s k'.
Definition update_variable (f : family) (s : store) (nu : string * tensor) : result store :=
  let k := variable_name f (fst nu) in
  match s k with
  | None => Err RuntimeError
  | Some v => do t <- updated v (snd nu); Ok (put s k t)
  end.
(** update_op = tf.group(update_ops) (detection_metrics.py:156-157, tracking_metrics.py:168-169,
    motion_metrics.py:165-166), fed with one batch. *)
Definition run_update (f : family) (s : store) (batch : list (string * tensor)) : result store :=
  foldM (update_variable f) batch s.

(** tf.constant([], shape=init_shape): no elements; a negative size is an error, and so is a
    shape that needs elements. *)
Definition empty (init : list Z) : result tensor :=
  if existsb (fun z => z <? 0) init then Err ValueError
  else let sh := map Z.to_nat init in
       if Nat.eqb (size sh) 0 then Ok (Tensor sh []) else Err ValueError.
(** tf.local_variables_initializer() for the variables one call declares. *)
Definition initialize (f : family) (s : store) (decl : list (string * list Z)) : result store :=
  foldM (fun s ni => do t <- empty (snd ni); Ok (put s (variable_name f (fst ni)) t)) decl s.

(** What a session does to the variables. [Feed f k batch]: run the update op that the [k]-th call
    of the function returned, fed with [batch]. *)
Inductive event :=
| Init (f : family) (decl : list (string * list Z))
| Feed (f : family) (call : nat) (batch : list (string * tensor)).
Definition step (s : store) (e : event) : result store :=
  match e with
  | Init f decl => initialize f s decl
  | Feed f _ batch => run_update f s batch
  end.
Definition run (s : store) (h : list event) : result store := foldM step h s.

(** ** The dictionaries *)

(** Label.Box.Type (label.proto:40-48) and _get_box_dof (detection_metrics.py:57-72,
    tracking_metrics.py:57-72). *)
Inductive box_type := BOX_UNKNOWN | BOX_3D | BOX_2D | BOX_AA_2D.
Definition box_dof (b : box_type) : Z :=
  match b with BOX_3D => 7 | BOX_2D => 5 | BOX_AA_2D => 4 | BOX_UNKNOWN => -1 end.

(** tf.shape(t)[0]. *)
Definition rows (t : tensor) : result nat :=
  match shape t with [] => Err ValueError | n :: _ => Ok n end.
(** tf.zeros((n, 2)) for a missing ground_truth_speed (detection_metrics.py:132-134,
    tracking_metrics.py:137-139). *)
Definition zero_speed (bbox : tensor) : result tensor :=
  do n <- rows bbox; Ok (Tensor [n; 2%nat] (repeat (CF 0) (n * 2))).
Definition default {A} (o : option A) (d : result A) : result A :=
  match o with Some a => Ok a | None => d end.

Record detection_batch := {
  d_prediction_frame_id : tensor; d_prediction_bbox : tensor; d_prediction_type : tensor;
  d_prediction_score : tensor; d_prediction_overlap_nlz : tensor; d_ground_truth_frame_id : tensor;
  d_ground_truth_bbox : tensor; d_ground_truth_type : tensor; d_ground_truth_difficulty : tensor;
  d_ground_truth_speed : option tensor }.
(** eval_dict (detection_metrics.py:136-149): the updates and the initial shapes. *)
Definition detection_decl (b : box_type) : list (string * list Z) :=
  [("prediction_frame_id"%string, [0]); ("prediction_bbox"%string, [0; box_dof b]);
   ("prediction_type"%string, [0]); ("prediction_score"%string, [0]);
   ("prediction_overlap_nlz"%string, [0]); ("ground_truth_frame_id"%string, [0]);
   ("ground_truth_bbox"%string, [0; box_dof b]); ("ground_truth_type"%string, [0]);
   ("ground_truth_difficulty"%string, [0]); ("ground_truth_speed"%string, [0; 2])].
Definition detection_dict (x : detection_batch) : result (list (string * tensor)) :=
  do speed <- default (d_ground_truth_speed x) (zero_speed (d_ground_truth_bbox x));
  Ok [("prediction_frame_id"%string, d_prediction_frame_id x); ("prediction_bbox"%string, d_prediction_bbox x);
      ("prediction_type"%string, d_prediction_type x); ("prediction_score"%string, d_prediction_score x);
      ("prediction_overlap_nlz"%string, d_prediction_overlap_nlz x);
      ("ground_truth_frame_id"%string, d_ground_truth_frame_id x);
      ("ground_truth_bbox"%string, d_ground_truth_bbox x); ("ground_truth_type"%string, d_ground_truth_type x);
      ("ground_truth_difficulty"%string, d_ground_truth_difficulty x); ("ground_truth_speed"%string, speed)].

Record tracking_batch := {
  t_prediction_bbox : tensor; t_prediction_type : tensor; t_prediction_score : tensor;
  t_prediction_frame_id : tensor; t_prediction_sequence_id : tensor; t_prediction_object_id : tensor;
  t_ground_truth_bbox : tensor; t_ground_truth_type : tensor; t_ground_truth_frame_id : tensor;
  t_ground_truth_sequence_id : tensor; t_ground_truth_object_id : tensor; t_ground_truth_difficulty : tensor;
  t_prediction_overlap_nlz : option tensor; t_ground_truth_speed : option tensor }.
(** eval_dict (tracking_metrics.py:144-161) and the defaults (137-142). *)
Definition tracking_decl (b : box_type) : list (string * list Z) :=
  [("prediction_bbox"%string, [0; box_dof b]); ("prediction_type"%string, [0]); ("prediction_score"%string, [0]);
   ("prediction_frame_id"%string, [0]); ("prediction_sequence_id"%string, [0]); ("prediction_object_id"%string, [0]);
   ("ground_truth_bbox"%string, [0; box_dof b]); ("ground_truth_type"%string, [0]); ("ground_truth_frame_id"%string, [0]);
   ("ground_truth_sequence_id"%string, [0]); ("ground_truth_object_id"%string, [0]);
   ("ground_truth_difficulty"%string, [0]); ("prediction_overlap_nlz"%string, [0]); ("ground_truth_speed"%string, [0; 2])].
Definition tracking_dict (x : tracking_batch) : result (list (string * tensor)) :=
  do speed <- default (t_ground_truth_speed x) (zero_speed (t_ground_truth_bbox x));
  do nlz <- default (t_prediction_overlap_nlz x)
    (Ok (Tensor (shape (t_prediction_frame_id x)) (map (fun _ => CB false) (data (t_prediction_frame_id x)))));
  Ok [("prediction_bbox"%string, t_prediction_bbox x); ("prediction_type"%string, t_prediction_type x);
      ("prediction_score"%string, t_prediction_score x); ("prediction_frame_id"%string, t_prediction_frame_id x);
      ("prediction_sequence_id"%string, t_prediction_sequence_id x); ("prediction_object_id"%string, t_prediction_object_id x);
      ("ground_truth_bbox"%string, t_ground_truth_bbox x); ("ground_truth_type"%string, t_ground_truth_type x);
      ("ground_truth_frame_id"%string, t_ground_truth_frame_id x);
      ("ground_truth_sequence_id"%string, t_ground_truth_sequence_id x);
      ("ground_truth_object_id"%string, t_ground_truth_object_id x);
      ("ground_truth_difficulty"%string, t_ground_truth_difficulty x);
      ("prediction_overlap_nlz"%string, nlz); ("ground_truth_speed"%string, speed)].

(** ** Motion: static shapes and defaults *)

(** shape.as_list(): None is a size not known statically. *)
Definition static := list (option Z).
Record motion_shapes := {
  s_prediction_trajectory : static; s_prediction_score : static; s_ground_truth_trajectory : static;
  s_ground_truth_is_valid : static; s_prediction_ground_truth_indices : static;
  s_prediction_ground_truth_indices_mask : static; s_object_type : static; s_object_id : option static }.
(** Python == on None and integers. *)
Definition same_dim (a b : option Z) : bool :=
  match a, b with None, None => true | Some x, Some y => x =? y | _, _ => false end.
(** assert t.shape.as_list()[k] == n. *)
Definition assert_dim (t : static) (k : nat) (n : option Z) : result unit :=
  match nth_error t k with
  | None => Err IndexError
  | Some d => if same_dim d n then Ok tt else Err AssertionError
  end.
(** motion_metrics.py:110-132: the unpacking and the asserts, in order; the sizes are the groups,
    the predictions per group, the agents of a joint prediction, the prediction steps and the ground
    truth steps. Unpacking a shape of another length is a ValueError. *)
Definition motion_sizes (x : motion_shapes) : result (option Z * option Z * option Z * option Z * option Z) :=
  match s_prediction_trajectory x with
  | [_; num_groups; top_k; num_agents; num_pred_steps; _] =>
      match s_ground_truth_trajectory x with
      | [_; _; num_gt_steps; _] =>
          do _ <- assert_dim (s_prediction_trajectory x) 5 (Some 2);
          do _ <- assert_dim (s_ground_truth_trajectory x) 1 num_agents;
          do _ <- assert_dim (s_ground_truth_trajectory x) 3 (Some 7);
          do _ <- assert_dim (s_ground_truth_is_valid x) 1 num_agents;
          do _ <- assert_dim (s_ground_truth_is_valid x) 2 num_gt_steps;
          do _ <- assert_dim (s_prediction_ground_truth_indices x) 1 num_groups;
          do _ <- assert_dim (s_prediction_ground_truth_indices x) 2 num_agents;
          do _ <- assert_dim (s_prediction_ground_truth_indices_mask x) 1 num_groups;
          do _ <- assert_dim (s_prediction_ground_truth_indices_mask x) 2 num_agents;
          do _ <- assert_dim (s_prediction_score x) 1 num_groups;
          do _ <- assert_dim (s_prediction_score x) 2 top_k;
          do _ <- assert_dim (s_object_type x) 1 num_agents;
          do _ <- match s_object_id x with None => Ok tt | Some t => assert_dim t 1 num_agents end;
          Ok (num_groups, top_k, num_agents, num_pred_steps, num_gt_steps)
      | _ => Err ValueError
      end
  | _ => Err ValueError
  end.
(** tf.tile(tf.range(num_agents)[newaxis], (batch_size, 1)) (motion_metrics.py:127-130). *)
Definition default_object_id (batch_size num_agents : nat) : tensor :=
  Tensor [batch_size; num_agents] (concat (repeat (map (fun j => CI (Z.of_nat j)) (seq 0 num_agents)) batch_size)).
(** tf.strings.as_string(tf.range(batch_size)) (motion_metrics.py:134-136); [dec] prints an integer. *)
Definition default_scenario_id (dec : Z -> string) (batch_size : nat) : tensor :=
  Tensor [batch_size] (map (fun i => CS (dec (Z.of_nat i))) (seq 0 batch_size)).

Record motion_batch := {
  m_prediction_trajectory : tensor; m_prediction_score : tensor; m_ground_truth_trajectory : tensor;
  m_ground_truth_is_valid : tensor; m_prediction_ground_truth_indices : tensor;
  m_prediction_ground_truth_indices_mask : tensor; m_object_type : tensor;
  m_object_id : option tensor; m_scenario_id : option tensor }.
(** eval_dict (motion_metrics.py:138-158) with the static sizes known. *)
Definition motion_decl (num_groups top_k num_agents num_pred_steps num_gt_steps : Z) : list (string * list Z) :=
  [("ground_truth_trajectory"%string, [0; num_agents; num_gt_steps; 7]);
   ("ground_truth_is_valid"%string, [0; num_agents; num_gt_steps]);
   ("prediction_trajectory"%string, [0; num_groups; top_k; num_agents; num_pred_steps; 2]);
   ("prediction_score"%string, [0; num_groups; top_k]);
   ("prediction_ground_truth_indices"%string, [0; num_groups; num_agents]);
   ("prediction_ground_truth_indices_mask"%string, [0; num_groups; num_agents]);
   ("object_type"%string, [0; num_agents]); ("object_id"%string, [0; num_agents]); ("scenario_id"%string, [0])].
Definition motion_dict (dec : Z -> string) (num_agents : nat) (x : motion_batch) : result (list (string * tensor)) :=
  do object_id <- default (m_object_id x)
    (do n <- rows (m_prediction_trajectory x); Ok (default_object_id n num_agents));
  do scenario_id <- default (m_scenario_id x)
    (do n <- rows (m_prediction_trajectory x); Ok (default_scenario_id dec n));
  Ok [("ground_truth_trajectory"%string, m_ground_truth_trajectory x);
      ("ground_truth_is_valid"%string, m_ground_truth_is_valid x);
      ("prediction_trajectory"%string, m_prediction_trajectory x);
      ("prediction_score"%string, m_prediction_score x);
      ("prediction_ground_truth_indices"%string, m_prediction_ground_truth_indices x);
      ("prediction_ground_truth_indices_mask"%string, m_prediction_ground_truth_indices_mask x);
      ("object_type"%string, m_object_type x); ("object_id"%string, object_id); ("scenario_id"%string, scenario_id)].

(** ** The returned metrics *)

(** A value op: element [i] of the output named [o] of the kernel, or the recall at a precision. *)
Inductive value_op := Element (o : string) (i : nat) | RecallAt (p : Q) (i : nat).
(** The update op, or tf.constant([]). *)
Inductive update_op := UpdateOp | NoOp.
Definition dict := list (string * (value_op * update_op)).
(** d[k] = v. *)
Fixpoint set_key (d : dict) (k : string) (v : value_op * update_op) : dict :=
  match d with
  | [] => [(k, v)]
  | (k', v') :: d' => if String.eqb k k' then (k', v) :: d' else (k', v') :: set_key d' k v
  end.
Fixpoint get_key (d : dict) (k : string) : option (value_op * update_op) :=
  match d with
  | [] => None
  | (k', v) :: d' => if String.eqb k k' then Some v else get_key d' k
  end.

(** sub in s. *)
Fixpoint contains (sub s : string) : bool :=
  String.prefix sub s || match s with EmptyString => false | String _ s' => contains sub s' end.
Definition key (name metric : string) : string := (name ++ "/" ++ metric)%string.

(** The loop of get_detection_metric_ops (detection_metrics.py:166-186); [show] formats a float. The
    state is the dictionary and update_op_added. *)
Definition detection_step (show : Q -> string) (recall : option Q) (filter : option string)
  (st : dict * bool) (iname : nat * string) : dict * bool :=
  let '(d, added) := st in
  let '(i, name) := iname in
  if match filter with None => false | Some f => negb (contains f name) end then st else
  let d := set_key d (key name "AP") (Element "ap" i, if added then NoOp else UpdateOp) in
  let d := set_key d (key name "APH") (Element "aph" i, NoOp) in
  let d := set_key d (key name "APL") (Element "apl" i, NoOp) in
  let d := match recall with
           | None => d
           | Some p => set_key d (key name ("Recall@" ++ show p)) (RecallAt p i, NoOp)
           end in
  (d, true).
Definition enumerate {A} (l : list A) : list (nat * A) := combine (seq 0 (length l)) l.
Definition detection_metric_ops (show : Q -> string) (recall : option Q) (filter : option string) (names : list string) : dict :=
  fst (fold_left (detection_step show recall filter) (enumerate names) ([], false)).

(** The loops of get_tracking_metric_ops (tracking_metrics.py:178-190) and get_motion_metric_ops
    (motion_metrics.py:177-191), which differ in the names: [first] carries the update op for i = 0. *)
Definition plain_step (first : string * string) (others : list (string * string)) (d : dict) (iname : nat * string) : dict :=
  let '(i, name) := iname in
  let d := set_key d (key name (fst first)) (Element (snd first) i, if Nat.eqb i 0 then UpdateOp else NoOp) in
  fold_left (fun d mo => set_key d (key name (fst mo)) (Element (snd mo) i, NoOp)) others d.
Definition tracking_metric_ops (names : list string) : dict :=
  fold_left (plain_step ("MOTA", "mota")%string
    [("MOTP", "motp"); ("MISS", "miss"); ("MISMATCH", "mismatch"); ("FP", "fp")]%string) (enumerate names) [].
Definition motion_metric_ops (names : list string) : dict :=
  fold_left (plain_step ("minADE", "min_ade")%string
    [("minFDE", "min_fde"); ("MissRate", "miss_rate"); ("OverlapRate", "overlap_rate"); ("mAP", "mean_average_precision")]%string)
    (enumerate names) [].

(** Running every update op of the dictionary on one batch, each in its own session.run. *)
Definition run_updates (f : family) (d : dict) (s : store) (batch : list (string * tensor)) : result store :=
  foldM (fun s e => match snd (snd e) with UpdateOp => run_update f s batch | NoOp => Ok s end) d s.
(** Running all of them in one session.run: a node is run once. *)
Definition run_updates_together (f : family) (d : dict) (s : store) (batch : list (string * tensor)) : result store :=
  if existsb (fun e => match snd (snd e) with UpdateOp => true | NoOp => false end) d then run_update f s batch else Ok s.

(** The recall value (detection_metrics.py:181-183): [pr] holds the precision and the recall of the
    breakdown at each score cutoff; reduce_max of nothing is -inf, None here. *)
Definition masked_recall (p : Q) (x : Q * Q) : Q := if negb (Qle_bool (fst x) p) then snd x else 0.
Definition qmax (a b : Q) : Q := if Qle_bool a b then b else a.
Definition recall_at (p : Q) (pr : list (Q * Q)) : option Q :=
  match map (masked_recall p) pr with [] => None | x :: l => Some (fold_left qmax l x) end.
