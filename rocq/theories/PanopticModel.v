(** Model of the camera segmentation label helpers: utils/camera_segmentation_utils.py and
    wdl_limited/camera_segmentation/camera_segmentation_metrics.py (below
    /repo/src/waymo_open_dataset/). Images are flat lists of pixels; PNG coding is the identity on
    uint16; numpy integer arithmetic on uint32 wraps. skimage.segmentation.relabel_sequential and
    ArrayMap are modelled from their documentation. *)
From Coq Require Import String.
From Verif Require Import Base ResultLib.
Open Scope Z_scope.

(** astype(np.uint32), uint32 arithmetic, and assignment to a uint16 array. *)
Definition u32 (x : Z) : Z := x mod 4294967296.
Definition u16 (x : Z) : Z := x mod 65536.

(** decode_semantic_and_instance_labels_from_panoptic_label (camera_segmentation_utils.py:70-86);
    np.divmod rounds towards minus infinity, as Coq's div does. *)
Definition decode (d : Z) (label : list Z) : result (list (Z * Z)) :=
  if d <=? 0 then Err ValueError else Ok (map (fun p => (p / d, p mod d)) label).
(** encode_semantic_and_instance_labels_to_panoptic_label (89-111). *)
Definition encode_pixel (d sem inst : Z) : Z := u32 (u32 (u32 sem * d) + u32 inst).
Definition encode (d : Z) (l : list (Z * Z)) : list Z := map (fun p => encode_pixel d (fst p) (snd p)) l.

(** InstanceIDToGlobalIDMapping and CameraSegmentationLabel (protos). *)
Record id_map := { im_local : Z; im_global : Z; im_tracked : bool }.
Record seg_label := { sl_seq : string; sl_div : Z; sl_map : list id_map; sl_pixels : list Z; sl_coverage : option (list Z) }.

(** max of a list; numpy and Python raise ValueError on an empty one. *)
Definition zmax (l : list Z) : result Z := match l with [] => Err ValueError | x :: l' => Ok (fold_left Z.max l' x) end.

(** relabel_sequential (skimage): the distinct labels in increasing order become 1, 2, ..., with 0 kept
    at 0; a negative label is an error. [rank] is the number of distinct labels below x. *)
Definition rank (vals : list Z) (x : Z) : Z := Z.of_nat (List.length (filter (fun v => v <? x) (nodup Z.eq_dec vals))).
Definition relabel (vals : list Z) (x : Z) : Z := if existsb (Z.eqb 0) vals then rank vals x else rank vals x + 1.
Definition relabel_ok (vals : list Z) : result unit := if existsb (fun v => v <? 0) vals then Err ValueError else Ok tt.

(** _remap_global_ids, lines 157-168: the set of global ids of each sequence, sequences in the order of
    first occurrence; labels without mapping are skipped. Sets are duplicate-free lists. *)
Definition id_sets := list (string * list Z).
Fixpoint add_ids (s : string) (ids : list Z) (m : id_sets) : id_sets :=
  match m with
  | [] => [(s, nodup Z.eq_dec ids)]
  | (s', l) :: m' => if String.eqb s s' then (s', nodup Z.eq_dec (l ++ ids)) :: m' else (s', l) :: add_ids s ids m'
  end.
Definition global_ids (l : list seg_label) : id_sets :=
  fold_left (fun m f => match sl_map f with [] => m | _ => add_ids (sl_seq f) (map im_global (sl_map f)) m end) l [].
(** Lines 173-182: each sequence is shifted by the sum of the maxima of the earlier ones. *)
Fixpoint offsets (cum : Z) (m : id_sets) : result (list (string * list (Z * Z))) :=
  match m with
  | [] => Ok []
  | (s, l) :: m' => do mx <- zmax l; do r <- offsets (cum + mx) m'; Ok ((s, map (fun i => (i, i + cum)) l) :: r)
  end.
(** Lines 184-205: {sequence: {original id: remapped id}}. *)
Definition remapping := list (string * list (Z * Z)).
Definition remap_global_ids (sequential : bool) (l : list seg_label) : result remapping :=
  do off <- offsets 0 (global_ids l);
  let all := concat (map (fun p => map snd (snd p)) off) in
  if sequential && negb (match off with [] => true | _ => false end)
  then do _ <- relabel_ok all; Ok (map (fun p => (fst p, map (fun q => (fst q, relabel all (snd q))) (snd p))) off)
  else Ok off.
(** Dictionary lookups. *)
Definition lookup (r : remapping) (s : string) (g : Z) : result Z :=
  match find (fun p => String.eqb s (fst p)) r with
  | None => Err KeyError
  | Some p => match find (fun q => fst q =? g) (snd p) with None => Err KeyError | Some q => Ok (snd q) end
  end.

(** decode_multi_frame_panoptic_labels_from_segmentation_labels, one frame (306-340).
    np.divmod of a uint16 image by a divisor that fits stays uint16, so that the assignment of a global
    id wraps; with a larger divisor the image is widened. *)
Definition cast (d x : Z) : Z := if d <=? 65535 then u16 x else x.
Definition remap_pixel (d : Z) (r : list (Z * Z * bool)) (inst : Z) : Z * bool :=
  fold_left (fun (acc : Z * bool) '(loc, g, tr) => if inst =? loc then (cast d g, tr) else acc) r (inst, false).
Definition decode_frame (to_global : bool) (r : remapping) (d : Z) (f : seg_label) : result (list Z * list bool * list Z) :=
  do sl <- decode (sl_div f) (sl_pixels f);
  do ms <- (if to_global then mapM (fun m => do g <- lookup r (sl_seq f) (im_global m); Ok (im_local m, g, im_tracked m)) (sl_map f) else Ok []);
  do mx <- zmax (map snd sl);
  if mx >=? d then Err ValueError else
  Ok (encode d (map (fun p => (fst p, fst (remap_pixel (sl_div f) ms (snd p)))) sl),
      map (fun p => snd (remap_pixel (sl_div f) ms (snd p))) sl,
      match sl_coverage f with Some c => c | None => map (fun _ => 1) sl end).
(** The divisor of the result (286-301). *)
Definition result_divisor (to_global : bool) (r : remapping) (new : option Z) (l : list seg_label) : result Z :=
  match new with
  | Some d => Ok d
  | None => match l with
            | [] => Err IndexError
            | f :: _ => if to_global then
                          match r with
                          | [] => Ok (sl_div f)
                          | _ => do mxs <- mapM (fun p => zmax (map snd (snd p))) r; do mx <- zmax mxs; Ok (Z.max (sl_div f) mx)
                          end
                        else Ok (sl_div f)
            end
  end.
(** decode_multi_frame_panoptic_labels_from_segmentation_labels (242-347). *)
Definition decode_multi (to_global sequential : bool) (new : option Z) (l : list seg_label) : result (list (list Z * list bool * list Z) * Z) :=
  match new, l with
  | None, [] => Err IndexError
  | _, _ =>
    do r <- (if to_global then remap_global_ids sequential l else Ok []);
    do d <- result_divisor to_global r new l;
    do out <- mapM (decode_frame to_global r d) l;
    Ok (out, d)
  end.

(** save_panoptic_label_to_proto (436-502). inverse_map lists the distinct labels in increasing order. *)
Fixpoint insertZ (x : Z) (l : list Z) : list Z := match l with [] => [x] | y :: l' => if x <=? y then x :: l else y :: insertZ x l' end.
Definition sortZ (l : list Z) : list Z := fold_right insertZ [] l.
Definition save_label (d new : Z) (seq : string) (label : list Z) : result seg_label :=
  do sl <- decode d label;
  let insts := map snd sl in
  do _ <- relabel_ok insts;
  do mx <- zmax (map (relabel insts) insts);
  let d' := Z.max new (mx + 1) in
  let out := encode d' (map (fun p => (fst p, relabel insts (snd p))) sl) in
  do top <- zmax out;
  if top >=? 65535 then Err ValueError else
  Ok {| sl_seq := seq; sl_div := d'; sl_pixels := map u16 out; sl_coverage := None;
        sl_map := map (fun o => {| im_local := relabel insts o; im_global := o; im_tracked := false |})
                      (filter (fun o => negb ((o =? 0) || (relabel insts o =? 0))) (sortZ (nodup Z.eq_dec insts))) |}.

(** load_frames_with_labels_from_dataset (505-538): frames given by the label of their first image,
    if any: (frame, sequence id). *)
Fixpoint load_loop {F} (k : nat) (frames : list (F * option string)) (acc : list F) (seq : option string) : list F * option string :=
  match frames with
  | [] => (acc, seq)
  | (f, None) :: l => load_loop k l acc seq
  | (f, Some s) :: l =>
      let acc' := acc ++ [f] in
      let seq' := match seq with None => s | Some s' => s' end in
      if negb (String.eqb s seq') || Nat.leb k (List.length acc') then (acc', Some seq') else load_loop k l acc' (Some seq')
  end.
Definition load_frames {F} (k : nat) (frames : list (F * option string)) : list F * option string := load_loop k frames [] None.

(** get_metric_object_by_sequence (camera_segmentation_metrics.py:64-101): what the metric object is fed
    with, (ground truth, prediction, weights) per frame. *)
Definition augment (d : Z) (y : list Z) (tracked : list Z) : list Z :=
  map (fun p => if snd p =? 0 then fst p / d * d else fst p) (combine y tracked).
Definition weight (c : Z) : Q := let q := inject_Z c in (1 / (if Qle_bool q (1 # 100000000) then 1 # 100000000 else q))%Q.
Definition metric_updates (d : Z) (truth pred : list (list Z)) (cov trk : list (list Z)) : result (list (list Z * list Z * list Q)) :=
  let n := List.length truth in
  if negb (Nat.eqb n (List.length pred)) then Err ValueError else
  if negb (Nat.eqb n (List.length cov)) then Err ValueError else
  if negb (Nat.eqb n (List.length trk)) then Err ValueError else
  Ok (map (fun p => match p with ((t, y), (c, k)) => (augment d t k, y, map weight c) end)
          (combine (combine truth pred) (combine cov trk))).
