(** What the parsed objects and motion predictions should be, from the header
    comments of metrics/ops/utils.h.  Shared with the model: tensors and the
    data types. *)
From Coq Require Import String Sorting.Sorted Sorting.Permutation.
From Verif Require Import Base ParseModel.
Open Scope list_scope.
Open Scope Z_scope.

(** ** Objects *)

Definition boxes_known (dof : nat) : Prop := dof = 4%nat \/ dof = 5%nat \/ dof = 7%nat.

(** The box of a row: centre and size in the plane for four numbers, heading
    added for five, height and vertical centre for seven. *)
Definition expected_box (t : tensor Q) (dof i : nat) : box :=
  let c j := Some (elem t [i; j]) in
  if Nat.eqb dof 7 then
    {| center_x := c 0%nat; center_y := c 1%nat; center_z := c 2%nat; length := c 3%nat;
       width := c 4%nat; height := c 5%nat; heading := c 6%nat |}
  else
    {| center_x := c 0%nat; center_y := c 1%nat; center_z := None; length := c 2%nat;
       width := c 3%nat; height := None; heading := if Nat.eqb dof 5 then c 4%nat else None |}.

Definition expected_object (inp : inputs) (dof i : nat) : object :=
  let per {A} (o : option (tensor A)) := option_map (fun t => elem t [i]) o in
  {| o_type := elem (type inp) [i]; o_score := per (score inp);
     o_box := expected_box (bbox inp) dof i; o_nlz := per (overlap_nlz inp);
     o_detection := per (detection_difficulty inp); o_tracking := per (tracking_difficulty inp);
     o_speed := option_map (fun t => (elem t [i; 0%nat], elem t [i; 1%nat])) (object_speed inp);
     o_id := None |}.
Definition identified (id : Z) (o : object) : object :=
  {| o_type := o_type o; o_score := o_score o; o_box := o_box o; o_nlz := o_nlz o;
     o_detection := o_detection o; o_tracking := o_tracking o; o_speed := o_speed o;
     o_id := Some id |}.

(** The ranks the documentation gives, with [n] boxes of [dof] numbers. *)
Definition rank {A} (t : tensor A) (r : nat) : Prop := List.length (dims t) = r.
Definition ranked (inp : inputs) : Prop :=
  rank (bbox inp) 2 /\ rank (type inp) 1 /\ rank (frame_id inp) 1
  /\ (forall t, score inp = Some t -> rank t 1)
  /\ (forall t, overlap_nlz inp = Some t -> rank t 1)
  /\ (forall t, detection_difficulty inp = Some t -> rank t 1)
  /\ (forall t, tracking_difficulty inp = Some t -> rank t 1)
  /\ (forall t, object_speed inp = Some t -> rank t 2).

(** All tensors have [n] rows, and if there are any, boxes of a known kind and
    two speed components. *)
Definition sized (inp : inputs) (n dof : nat) : Prop :=
  dims (bbox inp) = [n; dof] /\ dims (type inp) = [n] /\ dims (frame_id inp) = [n]
  /\ (forall t, score inp = Some t -> dims t = [n])
  /\ (forall t, overlap_nlz inp = Some t -> dims t = [n])
  /\ (forall t, detection_difficulty inp = Some t -> dims t = [n])
  /\ (forall t, tracking_difficulty inp = Some t -> dims t = [n])
  /\ (forall t, object_speed inp = Some t -> exists c, dims t = [n; c] /\ (n <> 0 -> 2 <= c)%nat)
  /\ (n <> 0%nat -> boxes_known dof).

(** The rows of a frame, in input order. *)
Definition rows_of_frame (inp : inputs) (n : nat) (f : Z) : list nat :=
  filter (fun i => elem (frame_id inp) [i] =? f) (seq 0 n).
Definition rows_of_sequence (inp : inputs) (sequence_id : tensor string) (n : nat) (s : string) (f : Z)
  : list nat :=
  filter (fun i => String.eqb (elem sequence_id [i]) s && (elem (frame_id inp) [i] =? f)) (seq 0 n).

(** What a hash map holds under a key. *)
Definition holds {K V} (m : list (K * V)) (k : K) (v : V) : Prop := In (k, v) m.

(** ** Motion predictions *)

Section Motion.
Variables (inp : motion_inputs) (sz : sizes).
Local Notation B := (n_batch sz).
Local Notation M := (n_groups sz).
Local Notation K := (n_top sz).
Local Notation N := (n_per_group sz).
Local Notation TP := (n_pred_steps sz).
Local Notation A := (n_agents sz).
Local Notation TG := (n_gt_steps sz).

(** The documented shapes; the inner dimension of the trajectories is not checked. *)
Definition motion_shapes : Prop :=
  (exists c, dims (pred_trajectory inp) = [B; M; K; N; TP; c])
  /\ dims (pred_score inp) = [B; M; K]
  /\ dims (gt_trajectory inp) = [B; A; TG; 7%nat]
  /\ dims (gt_is_valid inp) = [B; A; TG]
  /\ dims (pred_gt_indices inp) = [B; M; N]
  /\ dims (pred_gt_indices_mask inp) = [B; M; N]
  /\ dims (m_object_type inp) = [B; A]
  /\ dims (m_object_id inp) = [B; A]
  /\ dims (m_scenario_id inp) = [B].

(** An agent has a track if some step of it is valid. *)
Definition tracked (i j : nat) : bool :=
  existsb (fun t => elem (gt_is_valid inp) [i; j; t]) (seq 0 TG).
Definition tracked_agents (i : nat) : list nat := filter (tracked i) (seq 0 A).
Definition track_of (i j : nat) : track :=
  {| t_id := elem (m_object_id inp) [i; j];
     t_type := elem (m_object_type inp) [i; j];
     t_states := map (fun t =>
       let g c := elem (gt_trajectory inp) [i; j; t; c] in
       {| s_x := g 0%nat; s_y := g 1%nat; s_length := g 2%nat; s_width := g 3%nat;
          s_heading := g 4%nat; s_vx := g 5%nat; s_vy := g 6%nat;
          s_valid := elem (gt_is_valid inp) [i; j; t] |}) (seq 0 TG) |}.

Definition masked (i m : nat) : list nat :=
  filter (fun n => elem (pred_gt_indices_mask inp) [i; m; n]) (seq 0 N).
Definition gt_of (i m n : nat) : nat := Z.to_nat (elem (pred_gt_indices inp) [i; m; n]).

(** Where the track of an agent is, after [base] tracks: its rank among the
    tracked agents.  Agents without a track are found at zero. *)
Definition position (base : nat) (i j : nat) : nat :=
  if tracked i j then (base + List.length (filter (tracked i) (seq 0 j)))%nat else 0%nat.

(** The object id a prediction is attributed to: that of the agent, or of the
    first track of the scenario if the agent has none. *)
Definition attributed (tracks : list track) (i j : nat) : Z :=
  if tracked i j then elem (m_object_id inp) [i; j]
  else match tracks with t :: _ => t_id t | [] => 0 end.

Definition pairs (i : nat) : list (nat * nat) :=
  flat_map (fun m => map (pair m) (masked i m)) (seq 0 M).

(** One batch element added to a scenario. *)
Definition extended (i : nat) (p : parsed) : parsed :=
  let '(sc, pr) := p in
  let base := List.length (sc_tracks sc) in
  let tracks := sc_tracks sc ++ map (track_of i) (tracked_agents i) in
  ({| sc_id := elem (m_scenario_id inp) [i];
      sc_tracks := tracks;
      sc_required := sc_required sc
        ++ map (fun mn => (Z.of_nat (position base i (gt_of i (fst mn) (snd mn))), 1)) (pairs i);
      sc_interest := sc_interest sc
        ++ map (fun mn => elem (m_object_id inp)
                            [i; Z.to_nat (attributed tracks i (gt_of i (fst mn) (snd mn)))]) (pairs i) |},
   {| pr_id := elem (m_scenario_id inp) [i];
      pr_groups := pr_groups pr
        ++ map (fun m => map (fun k =>
             {| jt_confidence := elem (pred_score inp) [i; m; k];
                jt_trajectories := map (fun n =>
                  {| tj_object := attributed tracks i (gt_of i m n);
                     tj_x := map (fun s => elem (pred_trajectory inp) [i; m; k; n; s; 0%nat]) (seq 0 TP);
                     tj_y := map (fun s => elem (pred_trajectory inp) [i; m; k; n; s; 1%nat]) (seq 0 TP) |})
                  (masked i m) |}) (seq 0 K))
             (filter (fun m => match masked i m with [] => false | _ => true end) (seq 0 M)) |}).

(** The conditions on the predicted agents of an element: indices in range, a
    track to fall back on, and, because object ids are used as indices of the
    object id tensor, ids in range. *)
Definition element_ok (i : nat) (p : parsed) : Prop :=
  let tracks := sc_tracks (fst p) ++ map (track_of i) (tracked_agents i) in
  forall mn, In mn (pairs i) ->
    let gt := elem (pred_gt_indices inp) [i; fst mn; snd mn] in
    0 <= gt < Z.of_nat A
    /\ tracks <> []
    /\ 0 <= attributed tracks i (Z.to_nat gt) < Z.of_nat A.

(** The batch elements of a scenario among the first [b], and their result. *)
Definition elements (b : nat) (s : string) : list nat :=
  filter (fun i => String.eqb (elem (m_scenario_id inp) [i]) s) (seq 0 b).
Definition scenario_parsed (b : nat) (s : string) : parsed :=
  fold_left (fun p i => extended i p) (elements b s) empty_parsed.
End Motion.

(** Predicted trajectories have two coordinates at least (not checked by the code). *)
Definition wide (inp : motion_inputs) : Prop := exists b m k n t c,
  dims (pred_trajectory inp) = [b; m; k; n; t; c] /\ (2 <= c)%nat.
