(** Model of utils/keypoint_draw.py: wireframes and cropping.
    Conventions: a location is a list of rational coordinates; arithmetic is exact; the names of keypoint types are kept
    without their prefix. The calls of the plotting libraries are represented by the data handed to them. *)
From Coq Require Import String.
From Verif Require Import Base ResultLib KpModel.
Open Scope list_scope.
Open Scope Z_scope.

Definition vec := list Q.
(** 33-34. *)
Definition DEFAULT_COLOR : string := "#424242".
Definition OCCLUDED_COLOR : string := "#000000".

(** Line (38-53) and Dot (56-81). *)
Record line := { l_start : vec; l_end : vec; l_color : string; l_width : Q }.
Record dot := { d_location : vec; d_color : string; d_size : Q; d_name : string; d_border : option string }.
(** Dot.actual_border_color (77-81): an empty border color counts as none. *)
Definition actual_border_color (d : dot) : string :=
  match d_border d with
  | Some b => if String.eqb b "" then d_color d else b
  | None => d_color d
  end.
Record wireframe := { lines : list line; dots : list dot }.

(** SolidLineEdge (113-135), BicoloredEdge (146-159), MultipointEdge (169-187). *)
Inductive edge :=
| SolidLine (start end_ : Z) (width : Q)
| Bicolored (start end_ : Z) (width : Q)
| Multipoint (start_avg end_avg : list Z) (width : Q).

Definition points := list (Z * @point vec).
Definition colors := list (Z * string).
Definition get_or {A} (d : A) (o : option A) : A := match o with Some x => x | None => d end.
(** colors[s]: KeyError when missing. *)
Definition item {A} (d : list (Z * A)) (k : Z) : result A :=
  match dict_get Z.eqb k d with Some v => Ok v | None => Err KeyError end.

Definition vadd (a b : vec) : vec := map (fun xy => (fst xy + snd xy)%Q) (combine a b).
Definition vscale (k : Q) (a : vec) : vec := map (Qmult k) a.
(** np.mean(..., axis=0) of a non-empty list of locations. Simplification: an empty list, for which numpy warns and gives
    NaN, is refused. *)
Definition vmean (vs : list vec) : result vec :=
  match vs with
  | [] => Err ValueError
  | v :: vs' => Ok (vscale (1 / inject_Z (Z.of_nat (List.length vs)))%Q (fold_left vadd vs' v))
  end.

(** _bicolor_lines (138-143). *)
Definition bicolor_lines (start : vec) (start_color : string) (end_ : vec) (end_color : string) (width : Q) : list line :=
  let middle := vscale (1 # 2) (vadd start end_) in
  [ {| l_start := start; l_end := middle; l_color := start_color; l_width := width |};
    {| l_start := middle; l_end := end_; l_color := end_color; l_width := width |} ].
(** _combine_colors (162-166). *)
Definition combine_colors (cs : list string) : string := match cs with [c] => c | _ => DEFAULT_COLOR end.

(** create_lines (126-135, 150-159, 175-187). *)
Definition create_lines (e : edge) (pts : points) (cols : colors) : result (list line) :=
  match e with
  | SolidLine s t w =>
      match dict_get Z.eqb s pts, dict_get Z.eqb t pts with
      | Some a, Some b =>
          Ok [ {| l_start := location a; l_end := location b; l_color := get_or DEFAULT_COLOR (dict_get Z.eqb s cols); l_width := w |} ]
      | _, _ => Ok []
      end
  | Bicolored s t w =>
      match dict_get Z.eqb s pts, dict_get Z.eqb t pts with
      | Some a, Some b =>
          Ok (bicolor_lines (location a) (get_or DEFAULT_COLOR (dict_get Z.eqb s cols))
                (location b) (get_or DEFAULT_COLOR (dict_get Z.eqb t cols)) w)
      | _, _ => Ok []
      end
  | Multipoint ss ts w =>
      let has l := forallb (fun t => match dict_get Z.eqb t pts with Some _ => true | None => false end) l in
      if has ss && has ts then
        do sp <- mapM (item pts) ss;
        do start <- vmean (map location sp);
        do sc <- mapM (item cols) ss;
        do ep <- mapM (item pts) ts;
        do end_ <- vmean (map location ep);
        do ec <- mapM (item cols) ts;
        Ok (bicolor_lines start (combine_colors sc) end_ (combine_colors ec) w)
      else Ok []
  end.

(** WireframeConfig (272-290). *)
Record wconfig := { edges : list edge; point_colors : colors; point_sizes : list (Z * Q); dot_size_factor : Q; line_width_factor : Q }.

(** dataclasses.replace(e, width=e.width * factor) (324). *)
Definition scaled (k : Q) (e : edge) : edge :=
  match e with
  | SolidLine s t w => SolidLine s t (w * k)
  | Bicolored s t w => Bicolored s t (w * k)
  | Multipoint ss ts w => Multipoint ss ts (w * k)
  end.

(** KeypointType (protos/keypoint.proto 63-85) and point_name (307-316); Name raises for other numbers. *)
Definition point_name (t : Z) : result string :=
  match t with
  | 0 => Ok "UNSPECIFIED" | 1 => Ok "NOSE" | 5 => Ok "LEFT_SHOULDER" | 6 => Ok "LEFT_ELBOW" | 7 => Ok "LEFT_WRIST"
  | 8 => Ok "LEFT_HIP" | 9 => Ok "LEFT_KNEE" | 10 => Ok "LEFT_ANKLE" | 13 => Ok "RIGHT_SHOULDER" | 14 => Ok "RIGHT_ELBOW"
  | 15 => Ok "RIGHT_WRIST" | 16 => Ok "RIGHT_HIP" | 17 => Ok "RIGHT_KNEE" | 18 => Ok "RIGHT_ANKLE" | 19 => Ok "FOREHEAD"
  | 20 => Ok "HEAD_CENTER" | _ => Err ValueError
  end%string.

(** _build_wireframe (319-336). *)
Definition make_dot (c : wconfig) (tp : Z * @point vec) : result dot :=
  do color <- item (point_colors c) (fst tp);
  do size <- item (point_sizes c) (fst tp);
  do name <- point_name (fst tp);
  Ok {| d_location := location (snd tp); d_color := color; d_size := (size * dot_size_factor c)%Q;
        d_name := (name ++ (if is_occluded (snd tp) then "?" else ""))%string;
        d_border := if is_occluded (snd tp) then Some OCCLUDED_COLOR else None |}.
Definition build_wireframe_of (pts : points) (c : wconfig) : result wireframe :=
  do ls <- mapM (fun e => create_lines (scaled (line_width_factor c) e) pts (point_colors c)) (edges c);
  do ds <- mapM (make_dot c) pts;
  Ok {| lines := concat ls; dots := ds |}.
(** build_camera_wireframe and build_laser_wireframe (339-352). *)
Definition build_wireframe (ks : list (@keypoint_proto vec)) (c : wconfig) : result wireframe :=
  build_wireframe_of (keypoint_coordinates ks) c.

(** The default tables (190-264, 267-269, 293-304). *)
Definition common_edges : list edge :=
  [Bicolored 10 9 2; Bicolored 9 8 2; Bicolored 8 5 2; Bicolored 5 6 2; Bicolored 6 7 2;
   Bicolored 18 17 2; Bicolored 17 16 2; Bicolored 16 13 2; Bicolored 13 14 2; Bicolored 14 15 2;
   Bicolored 8 16 2; Bicolored 5 13 2].
Definition camera_edges : list edge := common_edges ++ [Bicolored 1 19 1; Multipoint [19] [5; 13] 1].
Definition laser_edges : list edge := common_edges ++ [Bicolored 1 20 1; Multipoint [20] [5; 13] 1].
Definition default_colors : colors :=
  [(1, "#00FF00"); (19, "#00FFFF"); (20, "#00FFFF"); (5, "#FFA6FE"); (6, "#FFE502"); (7, "#006401"); (8, "#010067"); (9, "#95003A");
   (10, "#007DB5"); (13, "#774D00"); (14, "#90FB92"); (15, "#0076FF"); (16, "#D5FF00"); (17, "#A75740"); (18, "#6A826C")]%string.
Definition oks_scales : list (Z * Q) :=
  [(1, 52 # 1000); (5, 158 # 1000); (13, 158 # 1000); (6, 144 # 1000); (14, 144 # 1000); (7, 124 # 1000); (15, 124 # 1000);
   (8, 214 # 1000); (16, 214 # 1000); (9, 174 # 1000); (17, 174 # 1000); (10, 178 # 1000); (18, 178 # 1000); (19, 158 # 1000); (20, 158 # 1000)].
Definition qmax (a b : Q) : Q := if Qle_bool a b then b else a.
Definition default_point_sizes : list (Z * Q) :=
  let max_scale := fold_left qmax (map snd oks_scales) 0%Q in map (fun ns => (fst ns, (snd ns / max_scale)%Q)) oks_scales.
Definition camera_config : wconfig :=
  {| edges := camera_edges; point_colors := default_colors; point_sizes := default_point_sizes; dot_size_factor := 6; line_width_factor := 1 |}.
Definition laser_config : wconfig :=
  {| edges := laser_edges; point_colors := default_colors; point_sizes := default_point_sizes; dot_size_factor := 15; line_width_factor := 4 |}.

(** draw_laser_wireframe (378-402): one trace per line and one for all dots; np.stack refuses an empty list. *)
Inductive trace := LineTrace (start end_ : vec) (color : string) (width : Q) | DotTrace (ds : list (vec * string * string * Q * string)).
Definition draw_laser_wireframe (w : wireframe) : result (list trace) :=
  match dots w with
  | [] => Err ValueError
  | _ => Ok (map (fun l => LineTrace (l_start l) (l_end l) (l_color l) (l_width l)) (lines w)
             ++ [DotTrace (map (fun d => (d_location d, d_name d, d_color d, d_size d, actual_border_color d)) (dots w))])
  end.

(** ** Cropping *)

(** int(): towards zero. *)
Definition trunc (q : Q) : Z := if Qle_bool 0 q then Qfloor q else - Qfloor (- q).
(** l[start:stop] of Python. *)
Definition bound (n : nat) (i : Z) : nat := Z.to_nat (Z.max 0 (Z.min (Z.of_nat n) (if i <? 0 then i + Z.of_nat n else i))).
Definition slice {A} (l : list A) (start stop : Z) : list A :=
  firstn (bound (List.length l) stop - bound (List.length l) start) (skipn (bound (List.length l) start) l).

(** A camera keypoint with its place in the image; the rest of it is kept. *)
Record cam_kp (K : Type) := { px : Q; py : Q; rest : K }.
Arguments px {K}. Arguments py {K}. Arguments rest {K}.
(** Label.Box: its length is along x and its width along y. *)
Record box := { center_x : Q; center_y : Q; length_ : Q; width_ : Q }.

(** crop_camera_keypoints (405-438). [height] and [width] are image.shape[0] and image.shape[1]; the pixels are rows of columns. *)
Definition crop_camera_keypoints {A K} (height width : Z) (image : list (list A)) (ks : list (cam_kp K)) (b : box) (margin : Q)
  : list (list A) * list (cam_kp K) :=
  let crop_width := ((1 + margin) * length_ b)%Q in
  let crop_height := ((1 + margin) * width_ b)%Q in
  let min_x := Z.max 0 (trunc (center_x b - crop_width / 2)) in
  let min_y := Z.max 0 (trunc (center_y b - crop_height / 2)) in
  let ks' := map (fun k => {| px := (px k - inject_Z min_x)%Q; py := (py k - inject_Z min_y)%Q; rest := rest k |}) ks in
  let max_x := Z.min (width - 1) (trunc (center_x b + crop_width / 2)) in
  let max_y := Z.min (height - 1) (trunc (center_y b + crop_height / 2)) in
  (map (fun row => slice row min_x max_x) (slice image min_y max_y), ks').
