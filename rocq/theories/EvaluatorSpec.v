(** What the evaluator should answer: a function of the updates since it was
    last cleared.  Shared with the model: arrays, their concatenation, the
    calls and the arguments of the op. *)
From Coq Require Import String.
From Verif Require Import Base ResultLib EvaluatorModel.
Open Scope list_scope.

Section Spec.
Context {R M : Type}.
Notation dict := (list (string * array R)).
(** An update is its ground truths and its predictions. *)
Notation upd := (dict * dict)%type.

Definition has_fields (fields : list string) (d : dict) : bool :=
  forallb (fun k => existsb (String.eqb k) (map fst d)) fields.
Definition prediction_fields : list string :=
  ["prediction_frame_id"; "prediction_bbox"; "prediction_type"; "prediction_score";
   "prediction_overlap_nlz"]%string.
Definition groundtruth_fields : list string :=
  ["ground_truth_frame_id"; "ground_truth_bbox"; "ground_truth_type"; "ground_truth_difficulty"]%string.
Definition good_predictions (u : upd) : bool := has_fields prediction_fields (snd u).
Definition good_groundtruths (u : upd) : bool := has_fields groundtruth_fields (fst u).
Definition good (u : upd) : bool := good_predictions u && good_groundtruths u.

(** Predictions are kept also when the ground truths are incomplete. *)
Definition kept_predictions (us : list upd) : list dict := map snd (filter good_predictions us).
Definition kept_groundtruths (us : list upd) : list dict := map fst (filter good us).

(** The values of a key, in order. *)
Definition values (k : string) (ds : list dict) : list (array R) :=
  flat_map (fun d => map snd (filter (fun e => String.eqb (fst e) k) d)) ds.
Definition joined (k : string) (ds : list dict) : result (array R) :=
  match values k ds with [] => Err KeyError | l => concat_arrays l end.
Definition joined_optional (k : string) (ds : list dict) : result (option (array R)) :=
  match values k ds with [] => Ok None | l => do a <- concat_arrays l; Ok (Some a) end.

Definition arguments (us : list upd) : result (op_args R) :=
  let p := kept_predictions us in
  let g := kept_groundtruths us in
  do pb <- joined "prediction_bbox" p; do pt <- joined "prediction_type" p;
  do ps <- joined "prediction_score" p; do pf <- joined "prediction_frame_id" p;
  do pn <- joined "prediction_overlap_nlz" p;
  do gb <- joined "ground_truth_bbox" g; do gt <- joined "ground_truth_type" g;
  do gf <- joined "ground_truth_frame_id" g; do gd <- joined "ground_truth_difficulty" g;
  do gs <- joined_optional "ground_truth_speed" g;
  Ok {| a_pred_bbox := pb; a_pred_type := pt; a_pred_score := ps; a_pred_frame_id := pf;
        a_pred_overlap_nlz := pn; a_gt_bbox := gb; a_gt_type := gt; a_gt_frame_id := gf;
        a_gt_difficulty := gd; a_gt_speed := gs |}.

Variable op : op_args R -> result M.
Definition answer (us : list upd) : result M := do a <- arguments us; op a.

(** The answers of a history, with the updates [us] pending. *)
Fixpoint expected (us : list upd) (cs : list (call R)) : list (result M) :=
  match cs with
  | [] => []
  | Update g p :: cs' => expected (us ++ [(g, p)]) cs'
  | Evaluate :: cs' => answer us :: expected us cs'
  | Result :: cs' => answer us :: expected (if is_ok (answer us) then [] else us) cs'
  | Reset :: cs' => expected [] cs'
  end.

(** One update equivalent to several: under each key the concatenation of what
    the several have. *)
Definition merges (k : string) (ds : list dict) (d : dict) : Prop :=
  match values k ds with
  | [] => values k [d] = []
  | l => exists a, concat_arrays l = Ok a /\ values k [d] = [a]
  end.
Definition merged (us : list upd) (g p : dict) : Prop :=
  (forall k, merges k (map snd us) p) /\ (forall k, merges k (map fst us) g).

(** All prediction (ground truth) tensors of an update have as many rows as boxes. *)
Definition row_count (a : array R) : nat := List.length (rows a).
Definition aligned (fields : list string) (n : nat) (d : dict) : Prop :=
  forall k a, In k fields -> In (k, a) d -> row_count a = n.
Definition with_key (k : string) (d : dict) : bool := existsb (String.eqb k) (map fst d).
End Spec.
