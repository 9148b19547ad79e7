(** The tutorial of the camera-only detection challenge, /repo/tutorial/tutorial_camera_only.ipynb. Lines are those of the notebook file.
    Projection and drawing, the metadata of a submission and the metrics op are not modelled here. *)
From Coq Require Import QArith String.
From Verif Require Import Base ResultLib.
Open Scope list_scope.

(** metrics_pb2.Object; the id is written as class and number, and the box as its seven values. *)
Record object := Object { o_context : string; o_time : Z; o_box : list Q; o_type : Z; o_id : Z * nat; o_score : Q }.
Definition item {A} (l : list A) (i : nat) : result A := match nth_error l i with Some a => Ok a | None => Err IndexError end.
(** 600: unpacking seven values. *)
Definition seven (b : list Q) : result (list Q) := if (List.length b =? 7)%nat then Ok b else Err ValueError.
(** 614: label_pb2.Label.Type.Name, defined for 0 to 4 (label.proto). *)
Definition type_name (cls : Z) : result Z := if ((0 <=? cls) && (cls <=? 4))%Z then Ok cls else Err ValueError.
(** 581-619: make_inference_objects. *)
Definition make_inference_objects (context : string) (time : Z) (boxes : list (list Q)) (classes : list Z) (scores : list Q) : result (list object) :=
  mapM (fun i =>
    do row <- item boxes i;
    do box <- seven row;
    do cls <- item classes i;
    do score <- item scores i;
    do ty <- type_name cls;
    Ok (Object context time box ty (cls, i) score)) (seq 0 (List.length boxes)).

(** 692-693: append to one of the shards. *)
Fixpoint append_at {A} (shards : list (list A)) (i : nat) (a : A) : list (list A) :=
  match shards, i with
  | [], _ => []
  | s :: shards', O => (s ++ [a]) :: shards'
  | s :: shards', S i' => s :: append_at shards' i' a
  end.
(** 688-694: all objects in order, with a counter; a number modulo zero is an error (ZeroDivisionError, here RuntimeError). *)
Fixpoint distribute {A} (num_submission_shards obj_counter : nat) (objects : list A) (submissions : list (list A)) : result (list (list A)) :=
  match objects with
  | [] => Ok submissions
  | o :: objects' =>
      if (num_submission_shards =? 0)%nat then Err RuntimeError
      else distribute num_submission_shards (obj_counter + 1) objects' (append_at submissions (obj_counter mod num_submission_shards) o)
  end.
(** 683-694. *)
Definition pack {A} (num_submission_shards : nat) (objects : list A) : result (list (list A)) :=
  distribute num_submission_shards 0 objects (repeat [] num_submission_shards).

(** A ground truth object: [g_camera] is the most visible camera, empty if none; [g_synced] the camera-synced box if it is set. *)
Record truth := Truth { g_context : string; g_time : Z; g_camera : string; g_points : Z; g_level : Z; g_synced : option (list Q); g_type : Z }.
(** The eight columns of eval_dict, ground truth and predictions. *)
Record truth_columns := TruthColumns { t_frame_id : list Z; t_bbox : list (list Q); t_type : list Z; t_difficulty : list Z }.
Record prediction_columns := PredictionColumns { p_frame_id : list Z; p_bbox : list (list Q); p_type : list Z; p_score : list Q }.
(** The seven fields of a box that is not set are zero. *)
Definition synced_box (g : truth) : list Q := match g_synced g with Some b => b | None => repeat 0%Q 7 end.
(** 875-900. *)
Fixpoint parse_truths (l : list truth) (c : truth_columns) : truth_columns :=
  match l with
  | [] => c
  | g :: l' =>
      if String.eqb (g_camera g) "" then parse_truths l' c
      else if (g_points g =? 0)%Z then parse_truths l' c
      else
        let level := if (g_level g =? 0)%Z then 2%Z else g_level g in
        parse_truths l' (TruthColumns (t_frame_id c ++ [g_time g]) (t_bbox c ++ [synced_box g]) (t_type c ++ [g_type g]) (t_difficulty c ++ [level]))
  end.
(** 903-917. *)
Fixpoint parse_predictions (l : list object) (c : prediction_columns) : prediction_columns :=
  match l with
  | [] => c
  | o :: l' => parse_predictions l' (PredictionColumns (p_frame_id c ++ [o_time o]) (p_bbox c ++ [o_box o]) (p_type c ++ [o_type o]) (p_score c ++ [o_score o]))
  end.
(** 919-921: tf.stack of an empty list is an error. *)
Definition stack {A} (l : list A) : result (list A) := match l with [] => Err ValueError | _ => Ok l end.
(** 858-921: parse_metrics_objects_binary_files after reading the files. *)
Definition parse_metrics_objects (truths : list truth) (predictions : list object) : result (prediction_columns * truth_columns) :=
  let t := parse_truths truths (TruthColumns [] [] [] []) in
  let p := parse_predictions predictions (PredictionColumns [] [] [] []) in
  do a <- stack (p_frame_id p); do b <- stack (p_bbox p); do c <- stack (p_type p); do d <- stack (p_score p);
  do e <- stack (t_frame_id t); do f <- stack (t_bbox t); do g <- stack (t_type t); do h <- stack (t_difficulty t);
  Ok (PredictionColumns a b c d, TruthColumns e f g h).

(** 848-855: the values by name and kind (0: LET-mAP, 1: LET-mAPH, 2: LET-mAPL), in the order written; [keep] is the name filter. *)
Fixpoint metric_values (keep : string -> bool) (i : nat) (names : list string) (ap aph apl : list Q) : result (list (string * nat * Q)) :=
  match names with
  | [] => Ok []
  | n :: names' =>
      if keep n then
        do a <- item ap i; do h <- item aph i; do l <- item apl i;
        do rest <- metric_values keep (i + 1) names' ap aph apl;
        Ok ((n, 0%nat, a) :: (n, 1%nat, h) :: (n, 2%nat, l) :: rest)
      else metric_values keep (i + 1) names' ap aph apl
  end.
