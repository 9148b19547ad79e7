(** What wireframes and crops should show. Shared with the model: the data types, the configurations and the names of types. *)
From Coq Require Import String Qround.
From Verif Require Import Base KpModel KpDrawModel.
Open Scope list_scope.
Open Scope Z_scope.

Definition keypoint := @keypoint_proto vec.

(** [k] is the last keypoint of type [t]. *)
Definition latest (ks : list keypoint) (t : Z) (k : keypoint) : Prop :=
  exists before after, ks = before ++ k :: after /\ kp_type k = t /\ Forall (fun k' => kp_type k' <> t) after.
Definition present (ks : list keypoint) (t : Z) : Prop := exists k, In k ks /\ kp_type k = t.
(** The types of the keypoints, each where it first appears. *)
Fixpoint types_of (seen : list Z) (ks : list keypoint) : list Z :=
  match ks with
  | [] => []
  | k :: ks' => if existsb (Z.eqb (kp_type k)) seen then types_of seen ks' else kp_type k :: types_of (kp_type k :: seen) ks'
  end.

(** The color and size given to a type, the first entry of the table. *)
Definition entry {A} (table : list (Z * A)) (t : Z) : option A :=
  match find (fun e => fst e =? t) table with Some e => Some (snd e) | None => None end.

(** All locations have the same number of coordinates. *)
Definition same_dim (d : nat) (ks : list keypoint) : Prop := Forall (fun k => List.length (kp_location k) = d) ks.
(** [m] is the mean of [vs], coordinate by coordinate. *)
Definition is_mean (d : nat) (vs : list vec) (m : vec) : Prop :=
  List.length m = d
  /\ forall i, (i < d)%nat -> (nth i m 0 * inject_Z (Z.of_nat (List.length vs)) == fold_right Qplus 0 (map (fun v => nth i v 0) vs))%Q.

(** One dot: the place of the last keypoint of the type, its color, size and name, and the mark of an occluded point. *)
Definition dot_shows (ks : list keypoint) (c : wconfig) (t : Z) (x : dot) : Prop :=
  exists k color size name, latest ks t k /\ entry (point_colors c) t = Some color /\ entry (point_sizes c) t = Some size /\ point_name t = Ok name
    /\ d_location x = kp_location k /\ d_color x = color /\ d_size x = (size * dot_size_factor c)%Q
    /\ (if kp_occluded k then d_name x = (name ++ "?")%string /\ actual_border_color x = OCCLUDED_COLOR
        else d_name x = name /\ actual_border_color x = color).

(** Two halves that meet in the middle. *)
Definition halves (d : nat) (a : vec) (ca : string) (b : vec) (cb : string) (w : Q) (ls : list line) : Prop :=
  exists m, is_mean d [a; b] m /\ ls = [ {| l_start := a; l_end := m; l_color := ca; l_width := w |};
                                         {| l_start := m; l_end := b; l_color := cb; l_width := w |} ].
Definition color_or_default (c : wconfig) (t : Z) : string := match entry (point_colors c) t with Some s => s | None => DEFAULT_COLOR end.
(** The color of an end: that of its only point, or the default. *)
Definition end_color (c : wconfig) (ts : list Z) (s : string) : Prop :=
  match ts with [t] => entry (point_colors c) t = Some s | _ => s = DEFAULT_COLOR end.
(** An end in the middle of several points. *)
Definition end_of (d : nat) (ks : list keypoint) (ts : list Z) (m : vec) : Prop :=
  exists es, Forall2 (latest ks) ts es /\ is_mean d (map kp_location es) m.

(** The lines of an edge: none if a point is missing. *)
Definition edge_shows (d : nat) (ks : list keypoint) (c : wconfig) (e : edge) (ls : list line) : Prop :=
  match e with
  | SolidLine s t w =>
      (exists a b, latest ks s a /\ latest ks t b
         /\ ls = [ {| l_start := kp_location a; l_end := kp_location b; l_color := color_or_default c s; l_width := (w * line_width_factor c)%Q |} ])
      \/ (~ (present ks s /\ present ks t) /\ ls = [])
  | Bicolored s t w =>
      (exists a b, latest ks s a /\ latest ks t b
         /\ halves d (kp_location a) (color_or_default c s) (kp_location b) (color_or_default c t) (w * line_width_factor c) ls)
      \/ (~ (present ks s /\ present ks t) /\ ls = [])
  | Multipoint ss ts w =>
      (exists a b ca cb, end_of d ks ss a /\ end_of d ks ts b /\ end_color c ss ca /\ end_color c ts cb
         /\ halves d a ca b cb (w * line_width_factor c) ls)
      \/ (~ (Forall (present ks) ss /\ Forall (present ks) ts) /\ ls = [])
  end.

(** What is needed to draw. *)
Definition drawable_type (c : wconfig) (t : Z) : Prop :=
  entry (point_colors c) t <> None /\ entry (point_sizes c) t <> None /\ exists n, point_name t = Ok n.
Definition drawable_edge (ks : list keypoint) (c : wconfig) (e : edge) : Prop :=
  match e with
  | Multipoint ss ts _ => Forall (present ks) ss -> Forall (present ks) ts -> ss <> [] /\ ts <> [] /\ Forall (fun t => entry (point_colors c) t <> None) (ss ++ ts)
  | _ => True
  end.
(** The fifteen types of the default tables. *)
Definition known_types : list Z := [1; 5; 6; 7; 8; 9; 10; 13; 14; 15; 16; 17; 18; 19; 20].

(** ** Crops *)
Definition toward_zero (q : Q) : Z := if Qle_bool 0 q then Qfloor q else Qceiling q.
(** The sides of the enlarged box. *)
Definition left_side (b : box) (margin : Q) : Q := (center_x b - (1 + margin) * length_ b / 2)%Q.
Definition right_side (b : box) (margin : Q) : Q := (center_x b + (1 + margin) * length_ b / 2)%Q.
Definition top_side (b : box) (margin : Q) : Q := (center_y b - (1 + margin) * width_ b / 2)%Q.
Definition bottom_side (b : box) (margin : Q) : Q := (center_y b + (1 + margin) * width_ b / 2)%Q.
(** The first column and row shown. *)
Definition first_shown (side : Q) : Z := Z.max 0 (toward_zero side).
(** The first column or row no longer shown. *)
Definition end_shown (size : Z) (side : Q) : Z := Z.min (size - 1) (toward_zero side).

Definition image_ok {A} (height width : Z) (image : list (list A)) : Prop :=
  Z.of_nat (List.length image) = height /\ Forall (fun row => Z.of_nat (List.length row) = width) image.
Definition pixel {A} (image : list (list A)) (y x : Z) : option A :=
  if (y <? 0) || (x <? 0) then None
  else match nth_error image (Z.to_nat y) with Some row => nth_error row (Z.to_nat x) | None => None end.

(** ** The default skeletons *)
(** A limb of each side, from the ankle to the wrist. *)
Definition chain (side : string) : list (string * string) :=
  map (fun ab => ((side ++ fst ab)%string, (side ++ snd ab)%string))
    [("ANKLE", "KNEE"); ("KNEE", "HIP"); ("HIP", "SHOULDER"); ("SHOULDER", "ELBOW"); ("ELBOW", "WRIST")]%string.
Definition body_bones : list (string * string) :=
  chain "LEFT_" ++ chain "RIGHT_" ++ [("LEFT_HIP", "RIGHT_HIP"); ("LEFT_SHOULDER", "RIGHT_SHOULDER")]%string.
(** [e] is drawn between the two named points with width [w]. *)
Definition joins (w : Q) (ab : string * string) (e : edge) : Prop :=
  exists s t, e = Bicolored s t w /\ point_name s = Ok (fst ab) /\ point_name t = Ok (snd ab).
(** From the point [head] to the middle of the shoulders. *)
Definition neck (head : string) (e : edge) : Prop :=
  exists h l r, e = Multipoint [h] [l; r] 1 /\ point_name h = Ok head /\ point_name l = Ok "LEFT_SHOULDER"%string /\ point_name r = Ok "RIGHT_SHOULDER"%string.
Definition skeleton (head : string) (es : list edge) : Prop :=
  exists bones nose to_neck, es = bones ++ [nose; to_neck] /\ Forall2 (joins 2) body_bones bones /\ joins 1 ("NOSE"%string, head) nose /\ neck head to_neck.
(** The other side of the body: left points are 5 to 10, right points 13 to 18. *)
Definition mirror (t : Z) : Z := if (5 <=? t) && (t <=? 10) then t + 8 else if (13 <=? t) && (t <=? 18) then t - 8 else t.
