(** How the command line tools group predictions and ground truths into frames:
    metrics/tools/compute_detection_metrics_main.cc, compute_detection_let_metrics_main.cc and
    compute_tracking_metrics_main.cc (in src/waymo_open_dataset).

    Conventions.
    - The model starts after parsing the files and ends with the arguments of ComputeDetectionMetrics
      and ComputeTrackingMetrics, whose model is elsewhere (DetModel.v, MotModel.v).
    - Optional fields that are not set are None, or the default where the code never asks.
    - CheckFailed is a failed CHECK. *)
From Coq Require Import String Ascii.
From Verif Require Import Base ResultLib.
Open Scope list_scope.
Open Scope Z_scope.

(** ** std::map: an association list in ascending order of the keys *)
Section SortedMap.
Context {K V : Type}.
Variable ltb : K -> K -> bool.
(** m[k] with an update of the value: a missing key is inserted. *)
Fixpoint upsert (k : K) (f : option V -> V) (m : list (K * V)) : list (K * V) :=
  match m with
  | [] => [(k, f None)]
  | (k', v) :: m' => if ltb k k' then (k, f None) :: m else if ltb k' k then (k', v) :: upsert k f m' else (k', f (Some v)) :: m'
  end.
(** find. *)
Fixpoint get (k : K) (m : list (K * V)) : option V :=
  match m with
  | [] => None
  | (k', v) :: m' => if ltb k k' then None else if ltb k' k then get k m' else Some v
  end.
End SortedMap.
(** std::string comparison: bytes from the left, then the length. *)
Definition string_ltb (a b : string) : bool := match String.compare a b with Lt => true | _ => false end.
(** std::pair comparison. *)
Definition pair_ltb (a b : string * Z) : bool :=
  string_ltb (fst a) (fst b) || (negb (string_ltb (fst b) (fst a)) && (snd a <? snd b)).

(** ** Objects *)
(** CameraName.Name (dataset.proto:51-62). *)
Inductive camera_name := CAM_UNKNOWN | FRONT | FRONT_LEFT | FRONT_RIGHT | SIDE_LEFT | SIDE_RIGHT | REAR_LEFT | REAR | REAR_RIGHT.
(** absl::StrCat of the enumeration: its number in decimal. *)
Definition camera_text (c : camera_name) : string :=
  match c with
  | CAM_UNKNOWN => "0" | FRONT => "1" | FRONT_LEFT => "2" | FRONT_RIGHT => "3" | SIDE_LEFT => "4" | SIDE_RIGHT => "5"
  | REAR_LEFT => "6" | REAR => "7" | REAR_RIGHT => "8"
  end%string.
(** CameraName::Name_Parse. *)
Definition parse_camera (s : string) : option camera_name :=
  let is x := String.eqb s x in
  if is "UNKNOWN"%string then Some CAM_UNKNOWN else if is "FRONT"%string then Some FRONT
  else if is "FRONT_LEFT"%string then Some FRONT_LEFT else if is "FRONT_RIGHT"%string then Some FRONT_RIGHT
  else if is "SIDE_LEFT"%string then Some SIDE_LEFT else if is "SIDE_RIGHT"%string then Some SIDE_RIGHT
  else if is "REAR_LEFT"%string then Some REAR_LEFT else if is "REAR"%string then Some REAR
  else if is "REAR_RIGHT"%string then Some REAR_RIGHT else None.
Inductive difficulty := LEVEL_UNKNOWN | LEVEL_1 | LEVEL_2.
(** Object (metrics.proto:24-47) with the fields of its Label that the tools read; [box] is any type. *)
Record object {box : Type} := { context : string; stamp : Z; camera : camera_name; points : Z; top_points : Z;
  level : option difficulty; visible : option string; label_box : box; synced_box : box; score : Q }.
Arguments object : clear implicits.

Section Tools.
Context {box : Type}.
Notation obj := (object box).
Definition with_level (o : obj) (d : difficulty) : obj :=
  {| context := context o; stamp := stamp o; camera := camera o; points := points o; top_points := top_points o;
     level := Some d; visible := visible o; label_box := label_box o; synced_box := synced_box o; score := score o |}.
Definition with_box (o : obj) (b : box) : obj :=
  {| context := context o; stamp := stamp o; camera := camera o; points := points o; top_points := top_points o;
     level := level o; visible := visible o; label_box := b; synced_box := synced_box o; score := score o |}.
(** The level by the number of points, if there is none (compute_detection_metrics_main.cc:144-151). *)
Definition set_level (n : Z) (o : obj) : obj :=
  match level o with
  | None | Some LEVEL_UNKNOWN => with_level o (if n <=? 5 then LEVEL_2 else LEVEL_1)
  | Some _ => o
  end.
(** The ground truths of the detection tool (compute_detection_metrics_main.cc:137-153). *)
Fixpoint detection_truths (l : list obj) : list obj :=
  match l with
  | [] => []
  | o :: l' => if points o <=? 0 then detection_truths l' else set_level (points o) o :: detection_truths l'
  end.
(** Those of the error tolerant tool (compute_detection_let_metrics_main.cc:174-207). *)
Fixpoint let_truths (l : list obj) : result (list obj) :=
  match l with
  | [] => Ok []
  | o :: l' =>
      if top_points o <=? 0 then let_truths l' else
      let o1 := set_level (top_points o) o in
      match visible o1 with
      | None => let_truths l'
      | Some s =>
          if String.eqb s "" then let_truths l' else
          match parse_camera s with
          | None => Err CheckFailed
          | Some _ => do r <- let_truths l'; Ok (with_box o1 (synced_box o1) :: r)
          end
      end
  end.

(** get_key (compute_detection_metrics_main.cc:158-162). *)
Definition frame_key (o : obj) : string * Z := ((context o ++ "_" ++ camera_text (camera o))%string, stamp o).
Definition append_to (o : obj) (v : option (list obj)) : list obj := match v with None => [o] | Some l => l ++ [o] end.
Definition keyed {K} (ltb : K -> K -> bool) (key : obj -> K) (l : list obj) : list (K * list obj) :=
  fold_left (fun m o => upsert ltb (key o) (append_to o) m) l [].
Definition key_set {K} (ltb : K -> K -> bool) (key : obj -> K) (l : list obj) : list (K * unit) :=
  fold_left (fun m o => upsert ltb (key o) (fun _ => tt) m) l [].
Definition or_empty {A} (v : option (list A)) : list A := match v with None => [] | Some l => l end.
(** The examples of the detection tools (compute_detection_metrics_main.cc:155-191); the predictions
    are inserted into the set of keys before the ground truths. *)
Definition detection_examples (pds gts : list obj) : list (list obj) * list (list obj) :=
  let pd_map := keyed pair_ltb frame_key pds in
  let gt_map := keyed pair_ltb frame_key gts in
  let all := map fst (key_set pair_ltb frame_key (pds ++ gts)) in
  (map (fun k => or_empty (get pair_ltb k pd_map)) all, map (fun k => or_empty (get pair_ltb k gt_map)) all).
Definition detection_tool (pds gts : list obj) := detection_examples pds (detection_truths gts).
Definition let_tool (pds gts : list obj) : result (list (list obj) * list (list obj)) :=
  do g <- let_truths gts; Ok (detection_examples pds g).

(** The sequences of the tracking tool (compute_tracking_metrics_main.cc:139-162). *)
Definition nested {V} (ctx : string) (ts : Z) (f : option V -> V) (m : list (string * list (Z * V))) : list (string * list (Z * V)) :=
  upsert string_ltb ctx (fun v => upsert Z.ltb ts f (or_empty v)) m.
Definition tracking_map (l : list obj) : list (string * list (Z * list obj)) :=
  fold_left (fun m o => nested (context o) (stamp o) (append_to o) m) l [].
Definition tracking_keys (l : list obj) : list (string * list (Z * unit)) :=
  fold_left (fun m o => nested (context o) (stamp o) (fun _ => tt) m) l [].
Definition lookup2 (ctx : string) (ts : Z) (m : list (string * list (Z * list obj))) : list obj :=
  or_empty (get Z.ltb ts (or_empty (get string_ltb ctx m))).
Definition tracking_tool (pds gts : list obj) : list (list (list obj)) * list (list (list obj)) :=
  let pd_map := tracking_map pds in
  let gt_map := tracking_map gts in
  let all := tracking_keys (pds ++ gts) in
  (map (fun e => map (fun t => lookup2 (fst e) (fst t) pd_map) (snd e)) all,
   map (fun e => map (fun t => lookup2 (fst e) (fst t) gt_map) (snd e)) all).
End Tools.
