(** Tensors of keypoints and boxes, batches of them, and precision and recall of visibility:
    /repo/src/waymo_open_dataset/utils/keypoint_data.py 257-348, 376-381, 426-528 and
    metrics/python/keypoint_metrics.py 342-349 and 588-651.

    Simplifications: numbers are exact fractions, batches are stacked along the first axis (the default), weights with
    dimensions of one that are broadcast are left out, and all errors about shapes are ValueError. *)
From Coq Require Import QArith.
From Verif Require Import Base ResultLib.
Open Scope list_scope.

(** A tensor: its shape and its values, the last index running fastest. *)
Record tensor (A : Type) := { shape : list nat; values : list A }.
Arguments shape {A}. Arguments values {A}.
Definition rank {A} (t : tensor A) : nat := length (shape t).
Definition shape_eqb (a b : list nat) : bool := if list_eq_dec Nat.eq_dec a b then true else false.
(** tf.stack along the first axis; of nothing it is the empty vector. *)
Definition stack {A} (ts : list (tensor A)) : result (tensor A) :=
  match ts with
  | [] => Ok {| shape := [0%nat]; values := [] |}
  | t :: _ =>
    if forallb (fun u => shape_eqb (shape u) (shape t)) ts
    then Ok {| shape := length ts :: shape t; values := concat (map values ts) |}
    else Err ValueError
  end.

(** keypoint_data.py:273-306. *)
Record keypoints := { location : tensor Q; visibility : tensor Z; has_visible : tensor bool }.
Fixpoint rows {A} (count width : nat) (l : list A) : list (list A) :=
  match count with O => [] | S c => firstn width l :: rows c width (skipn width l) end.
(** 324-330: is_fully_visible. *)
Definition is_fully_visible (visibility : tensor Z) : tensor bool :=
  {| shape := shape visibility; values := map (fun v => Z.ltb 1 v) (values visibility) |}.
(** tf.reduce_any over the last axis. *)
Definition reduce_any (t : tensor bool) : tensor bool :=
  let lead := removelast (shape t) in
  {| shape := lead; values := map (existsb (fun b => b)) (rows (fold_right Nat.mul 1%nat lead) (last (shape t) 0%nat) (values t)) |}.
Definition two_or_three (n : nat) : bool := Nat.eqb n 2 || Nat.eqb n 3.
(** 308-322: __post_init__. *)
Definition make_keypoints (location : tensor Q) (visibility : tensor Z) (has_visible : option (tensor bool)) : result keypoints :=
  if negb (Nat.eqb (rank location) 2 || Nat.eqb (rank location) 3) then Err ValueError else
  if negb (shape_eqb (shape visibility) (removelast (shape location))) then Err ValueError else
  if negb (two_or_three (last (shape location) 0%nat)) then Err ValueError else
  Ok {| location := location; visibility := visibility;
        has_visible := match has_visible with Some h => h | None => reduce_any (is_fully_visible visibility) end |}.
(** 336-338: dims. *)
Definition dims (k : keypoints) : nat := last (shape (location k)) 0%nat.
(** 376-381: stack_keypoints. *)
Definition stack_keypoints (vs : list keypoints) : result keypoints :=
  do l <- stack (map location vs);
  do v <- stack (map visibility vs);
  make_keypoints l v None.

(** 426-453: boxes. *)
Record box := { center : tensor Q; size : tensor Q; heading : option (tensor Q) }.
(** 467-475: __post_init__. *)
Definition make_box (center size : tensor Q) (heading : option (tensor Q)) : result box :=
  if negb (Nat.eqb (rank center) 1 || Nat.eqb (rank center) 2) then Err ValueError else
  if negb (two_or_three (last (shape center) 0%nat)) then Err ValueError else
  if negb (shape_eqb (shape center) (shape size)) then Err ValueError else
  Ok {| center := center; size := size; heading := heading |}.
(** 459-465: min_corner and max_corner. *)
Definition zip_with {A B C} (f : A -> B -> C) (a : list A) (b : list B) : list C := map (fun ab => f (fst ab) (snd ab)) (combine a b).
Definition min_corner (b : box) : tensor Q :=
  {| shape := shape (center b); values := zip_with (fun c s => c - s / 2)%Q (values (center b)) (values (size b)) |}.
Definition max_corner (b : box) : tensor Q :=
  {| shape := shape (center b); values := zip_with (fun c s => c + s / 2)%Q (values (center b)) (values (size b)) |}.
(** 505-517: _stack_optional_headings. *)
Definition has_heading (b : box) : bool := match heading b with Some _ => true | None => false end.
Definition headings (vs : list box) : list (tensor Q) := flat_map (fun b => match heading b with Some h => [h] | None => [] end) vs.
Definition stack_optional_headings (vs : list box) : result (option (tensor Q)) :=
  let num_have_heading := length (filter has_heading vs) in
  if Nat.eqb num_have_heading 0 then Ok None else
  if Nat.eqb num_have_heading (length vs) then do h <- stack (headings vs); Ok (Some h) else Err AssertionError.
(** 520-528: stack_boxes. *)
Definition stack_boxes (vs : list box) : result box :=
  do c <- stack (map center vs);
  do s <- stack (map size vs);
  do h <- stack_optional_headings vs;
  make_box c s h.

(** Weights as Keras gives them to the values: one for all, one per object, or one per keypoint. *)
Definition expand_weights (sh : list nat) (w : option (tensor Q)) : result (list Q) :=
  let n := fold_right Nat.mul 1%nat sh in
  match w with
  | None => Ok (repeat 1%Q n)
  | Some w =>
    if shape_eqb (shape w) [] then Ok (repeat (hd 0%Q (values w)) n) else
    if shape_eqb (shape w) (removelast sh) then Ok (flat_map (fun x => repeat x (last sh 0%nat)) (values w)) else
    if shape_eqb (shape w) sh then Ok (values w) else Err ValueError
  end.
(** The sums Keras keeps: of the weights of the true and of the false ones. *)
Record sums := { true_positives : Q; false_ones : Q }.
Definition no_sums : sums := {| true_positives := 0; false_ones := 0 |}.
Definition qsum (l : list Q) : Q := fold_right Qplus 0%Q l.
Definition weight_of (f : bool -> bool -> bool) (obs : list (bool * bool * Q)) : Q :=
  qsum (map (fun o => if f (fst (fst o)) (snd (fst o)) then snd o else 0%Q) obs).
(** keypoint_metrics.py:342-349: the checks of update_state, with the dimensions of the box if there is one. *)
Definition checks (gt pr : keypoints) (box_dims : option nat) : bool :=
  shape_eqb (shape (location gt)) (shape (location pr)) && shape_eqb (shape (visibility gt)) (shape (visibility pr)) &&
  match box_dims with None => true | Some d => Nat.eqb (dims gt) d end.
(** One call of update_state. *)
Record call := { gt : keypoints; pr : keypoints; box_dims : option nat; weights : option (tensor Q) }.
Definition observe (c : call) : result (list (bool * bool * Q)) :=
  if negb (checks (gt c) (pr c) (box_dims c)) then Err ValueError else
  do w <- expand_weights (shape (visibility (gt c))) (weights c);
  Ok (combine (combine (values (is_fully_visible (visibility (gt c)))) (values (is_fully_visible (visibility (pr c))))) w).
(** 588-619: KeypointVisibilityPrecision; 621-651: KeypointVisibilityRecall. *)
Definition update_precision (s : sums) (c : call) : result sums :=
  do o <- observe c;
  Ok {| true_positives := true_positives s + weight_of (fun g p => g && p) o; false_ones := false_ones s + weight_of (fun g p => negb g && p) o |}.
Definition update_recall (s : sums) (c : call) : result sums :=
  do o <- observe c;
  Ok {| true_positives := true_positives s + weight_of (fun g p => g && p) o; false_ones := false_ones s + weight_of (fun g p => g && negb p) o |}.
Definition divide_no_nan (a b : Q) : Q := if Qeq_bool b 0 then 0%Q else (a / b)%Q.
Definition result_of (s : sums) : Q := divide_no_nan (true_positives s) (true_positives s + false_ones s).
Definition precision (cs : list call) : result Q := do s <- foldM update_precision cs no_sums; Ok (result_of s).
Definition recall (cs : list call) : result Q := do s <- foldM update_recall cs no_sums; Ok (result_of s).
