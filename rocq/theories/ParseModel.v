(** Parsing of metric op inputs: src/waymo_open_dataset/metrics/ops/utils.cc,
    and the alignment of frames in detection_metrics_ops.cc and
    tracking_metrics_ops.cc.

    Conventions.
    - A tensor is its dimensions and its elements; floats are rationals.
    - Errors: CheckFailed is a failed CHECK, a LOG(FATAL) or the fatal rank
      checks of Tensor::vec/matrix/tensor and Tensor::dim_size; IndexError is an
      element outside the dimensions, which is undefined behaviour (Eigen does
      not check in optimised builds).
    - Object and track ids are assumed to fit the 32 bits of their proto fields.
    - A hash map is an association list without repeated keys; only std::set
      copies of its keys are iterated by the detection and tracking ops, so its
      order is not observable there. *)
From Coq Require Import String.
From Verif Require Import Base ResultLib.
Open Scope list_scope.
Open Scope Z_scope.

Record tensor (A : Type) := Tensor { dims : list nat; elem : list nat -> A }.
Arguments Tensor {A} _ _.
Arguments dims {A} _.
Arguments elem {A} _ _.

Fixpoint inside (idx sh : list nat) : bool :=
  match idx, sh with
  | [], [] => true
  | i :: idx', n :: sh' => (i <? n)%nat && inside idx' sh'
  | _, _ => false
  end.
Definition read {A} (t : tensor A) (idx : list nat) : result A :=
  if negb (Nat.eqb (List.length idx) (List.length (dims t))) then Err CheckFailed
  else if inside idx (dims t) then Ok (elem t idx) else Err IndexError.
Definition dim_size {A} (t : tensor A) (k : nat) : result nat :=
  match nth_error (dims t) k with Some n => Ok n | None => Err CheckFailed end.
Definition check (b : bool) : result unit := if b then Ok tt else Err CheckFailed.
Definition check_dim {A} (t : tensor A) (k n : nat) : result unit :=
  do d <- dim_size t k; check (Nat.eqb d n).
Definition check_rank {A} (t : tensor A) (r : nat) : result unit :=
  check (Nat.eqb (List.length (dims t)) r).

(** absl::optional. *)
Definition optM {A B} (f : A -> result B) (o : option A) : result (option B) :=
  match o with Some a => do b <- f a; Ok (Some b) | None => Ok None end.

(** Hash maps. *)
Fixpoint update {K V} (eqb : K -> K -> bool) (d : V) (k : K) (f : V -> V) (m : list (K * V)) : list (K * V) :=
  match m with
  | [] => [(k, f d)]
  | (k', v) :: m' => if eqb k k' then (k', f v) :: m' else (k', v) :: update eqb d k f m'
  end.
Fixpoint get {K V} (eqb : K -> K -> bool) (d : V) (k : K) (m : list (K * V)) : V :=
  match m with
  | [] => d
  | (k', v) :: m' => if eqb k k' then v else get eqb d k m'
  end.

(** ** Objects *)

(** protos/label.proto Label.Box; unset fields are None. *)
Record box := {
  center_x : option Q; center_y : option Q; center_z : option Q;
  length : option Q; width : option Q; height : option Q; heading : option Q
}.
(** protos/metrics.proto Object and its Label (the fields set here; the id is
    the decimal text of the number kept). *)
Record object := {
  o_type : Z; o_score : option Q; o_box : box; o_nlz : option bool;
  o_detection : option Z; o_tracking : option Z; o_speed : option (Q * Q); o_id : option Z
}.

(** GetBox3d 43-53, GetBox2d 58-68, GetAABox2d 73-82, GetBoxByDimension 87-99. *)
Definition get_box_by_dimension (bbox : tensor Q) (i : nat) : result box :=
  do dof <- dim_size bbox 1;
  let m j := read bbox [i; j] in
  match dof with
  | 4%nat =>
      do a <- m 0%nat; do b <- m 1%nat; do c <- m 2%nat; do d <- m 3%nat;
      Ok {| center_x := Some a; center_y := Some b; center_z := None; length := Some c;
            width := Some d; height := None; heading := None |}
  | 5%nat =>
      do a <- m 0%nat; do b <- m 1%nat; do c <- m 2%nat; do d <- m 3%nat; do e <- m 4%nat;
      Ok {| center_x := Some a; center_y := Some b; center_z := None; length := Some c;
            width := Some d; height := None; heading := Some e |}
  | 7%nat =>
      do a <- m 0%nat; do b <- m 1%nat; do c <- m 2%nat; do d <- m 3%nat; do e <- m 4%nat;
      do f <- m 5%nat; do g <- m 6%nat;
      Ok {| center_x := Some a; center_y := Some b; center_z := Some c; length := Some d;
            width := Some e; height := Some f; heading := Some g |}
  | _ => Err CheckFailed
  end.

(** GetDesiredBoxDOF 103-115, by the number of Label::Box::Type. *)
Definition get_desired_box_dof (box_type : Z) : result Z :=
  match box_type with
  | 3 => Ok 4
  | 2 => Ok 5
  | 1 => Ok 7
  | _ => Err CheckFailed
  end.

Record inputs := {
  bbox : tensor Q; type : tensor Z; frame_id : tensor Z;
  score : option (tensor Q); overlap_nlz : option (tensor bool);
  detection_difficulty : option (tensor Z); tracking_difficulty : option (tensor Z);
  object_speed : option (tensor Q)
}.

(** The body shared by both loops, 145-171 and 225-250. *)
Definition parse_object (inp : inputs) (i : nat) : result object :=
  do ty <- read (type inp) [i];
  do sc <- optM (fun t => read t [i]) (score inp);
  do bx <- get_box_by_dimension (bbox inp) i;
  do nl <- optM (fun t => read t [i]) (overlap_nlz inp);
  do de <- optM (fun t => read t [i]) (detection_difficulty inp);
  do tr <- optM (fun t => read t [i]) (tracking_difficulty inp);
  do sp <- optM (fun t => do x <- read t [i; 0%nat]; do y <- read t [i; 1%nat]; Ok (x, y)) (object_speed inp);
  Ok {| o_type := ty; o_score := sc; o_box := bx; o_nlz := nl; o_detection := de;
        o_tracking := tr; o_speed := sp; o_id := None |}.

Definition check_opt {A} (o : option (tensor A)) (n : nat) : result unit :=
  match o with Some t => check_dim t 0 n | None => Ok tt end.
Definition check_optional (inp : inputs) (n : nat) : result unit :=
  do _ <- check_opt (score inp) n;
  do _ <- check_opt (overlap_nlz inp) n;
  do _ <- check_opt (detection_difficulty inp) n;
  do _ <- check_opt (tracking_difficulty inp) n;
  check_opt (object_speed inp) n.

Definition push {A} (x : A) (l : list A) : list A := l ++ [x].

(** ParseObjectFromTensors 117-175. *)
Definition parse_objects (inp : inputs) : result (list (Z * list object)) :=
  do n <- dim_size (bbox inp) 0;
  do _ <- check_dim (type inp) 0 n;
  do _ <- check_dim (frame_id inp) 0 n;
  do _ <- check_optional inp n;
  foldM (fun m i =>
    do o <- parse_object inp i;
    do id <- read (frame_id inp) [i];
    Ok (update Z.eqb [] id (push o) m)) (seq 0 n) [].

Definition with_id (id : Z) (o : object) : object :=
  {| o_type := o_type o; o_score := o_score o; o_box := o_box o; o_nlz := o_nlz o;
     o_detection := o_detection o; o_tracking := o_tracking o; o_speed := o_speed o; o_id := Some id |}.

(** ParseObjectGroupedBySequenceFromTensors 177-266 (without the warnings about
    repeated ids). *)
Definition parse_sequences (inp : inputs) (sequence_id : tensor string) (object_id : tensor Z)
  : result (list (string * list (Z * list object))) :=
  do n <- dim_size (bbox inp) 0;
  do _ <- check_dim (type inp) 0 n;
  do _ <- check_dim (frame_id inp) 0 n;
  do _ <- check_dim sequence_id 0 n;
  do _ <- check_dim object_id 0 n;
  do _ <- check_optional inp n;
  foldM (fun m i =>
    do o <- parse_object inp i;
    do id <- read object_id [i];
    do f <- read (frame_id inp) [i];
    do s <- read sequence_id [i];
    Ok (update String.eqb [] s (update Z.eqb [] f (push (with_id id o))) m)) (seq 0 n) [].

(** std::set::insert. *)
Fixpoint set_insert {K} (cmp : K -> K -> comparison) (x : K) (l : list K) : list K :=
  match l with
  | [] => [x]
  | y :: l' => match cmp x y with
               | Eq => l
               | Lt => x :: l
               | Gt => y :: set_insert cmp x l'
               end
  end.
Definition key_set {K V} (cmp : K -> K -> comparison) (a b : list (K * V)) : list K :=
  fold_left (fun s k => set_insert cmp k s) (map fst a ++ map fst b) [].

(** detection_metrics_ops.cc ComputeImpl 211-231: predictions and ground truths
    of each frame, and one empty frame if there is none. *)
Definition align_frames {V} (pds gts : list (Z * list V)) : list (list V * list V) :=
  map (fun id => (get Z.eqb [] id pds, get Z.eqb [] id gts)) (key_set Z.compare pds gts).
Definition detection_frames {V} (pds gts : list (Z * list V)) : list (list V * list V) :=
  match align_frames pds gts with [] => [([], [])] | l => l end.

(** tracking_metrics_ops.cc ComputeImpl 210-239. *)
Definition tracking_sequences {V} (pds gts : list (string * list (Z * list V)))
  : list (list (list V * list V)) :=
  map (fun s => align_frames (get String.eqb [] s pds) (get String.eqb [] s gts))
      (key_set String.compare pds gts).

(** ** Motion predictions *)

Record state := {
  s_x : Q; s_y : Q; s_length : Q; s_width : Q; s_heading : Q; s_vx : Q; s_vy : Q; s_valid : bool
}.
Record track := { t_id : Z; t_type : Z; t_states : list state }.
(** protos/scenario.proto Scenario (the fields set here; a required prediction
    is its track index and difficulty). *)
Record scenario := {
  sc_id : string; sc_tracks : list track; sc_required : list (Z * Z); sc_interest : list Z
}.
(** protos/motion_metrics.proto. *)
Record trajectory := { tj_object : Z; tj_x : list Q; tj_y : list Q }.
Record joint := { jt_confidence : Q; jt_trajectories : list trajectory }.
Record predictions := { pr_id : string; pr_groups : list (list joint) }.
Notation parsed := (scenario * predictions)%type.

Record motion_inputs := {
  pred_trajectory : tensor Q; pred_score : tensor Q; gt_trajectory : tensor Q;
  gt_is_valid : tensor bool; pred_gt_indices : tensor Z; pred_gt_indices_mask : tensor bool;
  m_object_type : tensor Z; m_object_id : tensor Z; m_scenario_id : tensor string
}.

(** The CHECKs and sizes of 278-315. *)
Record sizes := {
  n_batch : nat; n_groups : nat; n_top : nat; n_per_group : nat; n_pred_steps : nat;
  n_agents : nat; n_gt_steps : nat
}.
Definition motion_sizes (inp : motion_inputs) : result sizes :=
  do _ <- check_rank (pred_trajectory inp) 6;
  do _ <- check_rank (pred_score inp) 3;
  do _ <- check_rank (gt_trajectory inp) 4;
  do _ <- check_rank (gt_is_valid inp) 3;
  do _ <- check_rank (pred_gt_indices inp) 3;
  do _ <- check_rank (pred_gt_indices_mask inp) 3;
  do _ <- check_rank (m_object_type inp) 2;
  do _ <- check_rank (m_object_id inp) 2;
  do _ <- check_rank (m_scenario_id inp) 1;
  do b <- dim_size (pred_trajectory inp) 0;
  do m <- dim_size (pred_trajectory inp) 1;
  do k <- dim_size (pred_trajectory inp) 2;
  do n <- dim_size (pred_trajectory inp) 3;
  do tp <- dim_size (pred_trajectory inp) 4;
  do a <- dim_size (gt_trajectory inp) 1;
  do tg <- dim_size (gt_trajectory inp) 2;
  do _ <- check_dim (pred_score inp) 0 b;
  do _ <- check_dim (pred_score inp) 1 m;
  do _ <- check_dim (pred_score inp) 2 k;
  do _ <- check_dim (gt_trajectory inp) 0 b;
  do _ <- check_dim (gt_trajectory inp) 3 7;
  do _ <- check_dim (gt_is_valid inp) 0 b;
  do _ <- check_dim (gt_is_valid inp) 1 a;
  do _ <- check_dim (gt_is_valid inp) 2 tg;
  do _ <- check_dim (pred_gt_indices inp) 0 b;
  do _ <- check_dim (pred_gt_indices inp) 1 m;
  do _ <- check_dim (pred_gt_indices inp) 2 n;
  do _ <- check_dim (pred_gt_indices_mask inp) 0 b;
  do _ <- check_dim (pred_gt_indices_mask inp) 1 m;
  do _ <- check_dim (pred_gt_indices_mask inp) 2 n;
  do _ <- check_dim (m_object_type inp) 0 b;
  do _ <- check_dim (m_object_type inp) 1 a;
  do _ <- check_dim (m_scenario_id inp) 0 b;
  do _ <- check_dim (m_object_id inp) 0 b;
  do _ <- check_dim (m_object_id inp) 1 a;
  Ok {| n_batch := b; n_groups := m; n_top := k; n_per_group := n; n_pred_steps := tp;
        n_agents := a; n_gt_steps := tg |}.

(** Is any element of the list true (331-337, stops at the first). *)
Fixpoint anyM {A} (f : A -> result bool) (l : list A) : result bool :=
  match l with
  | [] => Ok false
  | a :: l' => do b <- f a; if b then Ok true else anyM f l'
  end.

(** 345-355. *)
Definition parse_state (inp : motion_inputs) (i j t : nat) : result state :=
  let g c := read (gt_trajectory inp) [i; j; t; c] in
  do x <- g 0%nat; do y <- g 1%nat; do le <- g 2%nat; do wi <- g 3%nat; do he <- g 4%nat;
  do vx <- g 5%nat; do vy <- g 6%nat;
  do va <- read (gt_is_valid inp) [i; j; t];
  Ok {| s_x := x; s_y := y; s_length := le; s_width := wi; s_heading := he; s_vx := vx;
        s_vy := vy; s_valid := va |}.

(** 327-358: the tracks of the scenario and the map from ground truth index to
    track index. *)
Definition add_track (inp : motion_inputs) (sz : sizes) (i : nat)
    (acc : list track * list (Z * Z)) (j : nat) : result (list track * list (Z * Z)) :=
  let '(tracks, index) := acc in
  do id <- read (m_object_id inp) [i; j];
  do valid <- anyM (fun t => read (gt_is_valid inp) [i; j; t]) (seq 0 (n_gt_steps sz));
  if valid then
    do ty <- read (m_object_type inp) [i; j];
    do states <- mapM (parse_state inp i j) (seq 0 (n_gt_steps sz));
    Ok (tracks ++ [{| t_id := id; t_type := ty; t_states := states |}],
        update Z.eqb 0 (Z.of_nat j) (fun _ => Z.of_nat (List.length tracks)) index)
  else Ok acc.

(** 368-373 and 402-408: flat_hash_map::operator[] inserts 0 for a missing key. *)
Definition track_index (inp : motion_inputs) (sz : sizes) (tracks : list track)
    (index : list (Z * Z)) (i m n : nat) : result (Z * track) :=
  do gt <- read (pred_gt_indices inp) [i; m; n];
  do _ <- check (0 <=? gt);
  do _ <- check (gt <? Z.of_nat (n_agents sz));
  let k := get Z.eqb 0 gt index in
  do _ <- check (0 <=? k);
  do _ <- check (k <? Z.of_nat (List.length tracks));
  match nth_error tracks (Z.to_nat k) with
  | Some t => Ok (k, t)
  | None => Err IndexError
  end.

(** 360-383 for one group: required tracks, objects of interest, and whether
    the group has an agent. *)
Definition require (inp : motion_inputs) (sz : sizes) (tracks : list track) (index : list (Z * Z))
    (i m : nat) (acc : list (Z * Z) * list Z * bool) (n : nat) : result (list (Z * Z) * list Z * bool) :=
  let '(required, interest, _) := acc in
  do mask <- read (pred_gt_indices_mask inp) [i; m; n];
  if mask then
    do (k, t) <- track_index inp sz tracks index i m n;
    do interesting <- (if t_id t <? 0 then Err IndexError
                       else read (m_object_id inp) [i; Z.to_nat (t_id t)]);
    Ok (required ++ [(k, 1)], interest ++ [interesting], true)
  else Ok acc.
Definition require_group (inp : motion_inputs) (sz : sizes) (tracks : list track) (index : list (Z * Z))
    (i : nat) (acc : list (Z * Z) * list Z * list bool) (m : nat)
  : result (list (Z * Z) * list Z * list bool) :=
  let '(required, interest, valid) := acc in
  do (required', interest', v) <-
    foldM (require inp sz tracks index i m) (seq 0 (n_per_group sz)) (required, interest, false);
  Ok (required', interest', valid ++ [v]).

(** 399-418. *)
Definition parse_trajectory (inp : motion_inputs) (sz : sizes) (tracks : list track)
    (index : list (Z * Z)) (i m k j : nat) : result (list trajectory) :=
  do mask <- read (pred_gt_indices_mask inp) [i; m; j];
  if mask then
    do (_, t) <- track_index inp sz tracks index i m j;
    do xs <- mapM (fun s => read (pred_trajectory inp) [i; m; k; j; s; 0%nat]) (seq 0 (n_pred_steps sz));
    do ys <- mapM (fun s => read (pred_trajectory inp) [i; m; k; j; s; 1%nat]) (seq 0 (n_pred_steps sz));
    Ok [{| tj_object := t_id t; tj_x := xs; tj_y := ys |}]
  else Ok [].
(** 394-419. *)
Definition parse_joint (inp : motion_inputs) (sz : sizes) (tracks : list track)
    (index : list (Z * Z)) (i m k : nat) : result joint :=
  do s <- read (pred_score inp) [i; m; k];
  do ts <- mapM (parse_trajectory inp sz tracks index i m k) (seq 0 (n_per_group sz));
  Ok {| jt_confidence := s; jt_trajectories := List.concat ts |}.
(** 385-420. *)
Definition parse_group (inp : motion_inputs) (sz : sizes) (tracks : list track)
    (index : list (Z * Z)) (i : nat) (valid : list bool) (m : nat) : result (list (list joint)) :=
  if nth m valid false then
    do js <- mapM (parse_joint inp sz tracks index i m) (seq 0 (n_top sz)); Ok [js]
  else Ok [].

(** 319-421: one batch element, into what its scenario has so far. *)
Definition parse_element (inp : motion_inputs) (sz : sizes) (i : nat) (sid : string) (p : parsed)
  : result parsed :=
  let '(sc, pr) := p in
  do (tracks, index) <- foldM (add_track inp sz i) (seq 0 (n_agents sz)) (sc_tracks sc, []);
  do (required, interest, valid) <-
    foldM (require_group inp sz tracks index i) (seq 0 (n_groups sz)) (sc_required sc, sc_interest sc, []);
  do groups <- mapM (parse_group inp sz tracks index i valid) (seq 0 (n_groups sz));
  Ok ({| sc_id := sid; sc_tracks := tracks; sc_required := required; sc_interest := interest |},
      {| pr_id := sid; pr_groups := pr_groups pr ++ List.concat groups |}).

Definition empty_parsed : parsed :=
  ({| sc_id := ""; sc_tracks := []; sc_required := []; sc_interest := [] |},
   {| pr_id := ""; pr_groups := [] |}).

(** ParseScenarioAndPredictonsFromTensors 268-423. *)
Definition parse_motion (inp : motion_inputs) : result (list (string * parsed)) :=
  do sz <- motion_sizes inp;
  foldM (fun results i =>
    do sid <- read (m_scenario_id inp) [i];
    do p <- parse_element inp sz i sid (get String.eqb empty_parsed sid results);
    Ok (update String.eqb empty_parsed sid (fun _ => p) results)) (seq 0 (n_batch sz)) [].
