(** Model of utils/compression/delta_encoder.py.
    Simplifications: the zlib and protobuf byte layers are assumed lossless and are
    represented by the message record, except that the float32 storage of the
    precisions is an explicit parameter [f32]; int64 wrap-around is not modelled
    (integers are Z); the range image is a float array of exact rationals. *)
From Verif Require Import Base NdArray.

(** Argument quant_precision: Union[float, list[float]] (delta_encoder.py:27-29). *)
Inductive precision_arg : Type :=
| OneNumber (p : Q)
| ManyNumbers (ps : list Q).

(** DeltaEncodedData and Metadata (protos/compressed_lidar.proto:65-82). *)
Record message := {
  residual : list Z;
  mask : list nat;
  meta_shape : list nat;
  meta_precision : list Q }.

(** A numpy array of rank 3: shape (rows, cols, channels) and row-major data. *)
Record image (A : Type) := { rows : nat; cols : nat; chans : nat; pixels : list A }.
Arguments rows {A}. Arguments cols {A}. Arguments chans {A}. Arguments pixels {A}.

Definition shape_of {A} (x : image A) : list nat := [rows x; cols x; chans x].

(** _rlencode, starts of runs (delta_encoder.py:149-150):
    np.r_[0, np.where(np.not_equal(x[1:], x[:-1]))[0] + 1]. *)
Definition run_starts (x : list nat) : list nat :=
  O :: map S (filter (fun i => negb (Nat.eqb (nth (S i) x O) (nth i x O)))
                (seq 0 (length x - 1)%nat)).

(** np.diff on a list of indices (delta_encoder.py:152). *)
Fixpoint diffs (l : list nat) : list nat :=
  match l with
  | [] => []
  | a :: t => match t with
              | [] => []
              | b :: _ => (b - a)%nat :: diffs t
              end
  end.

(** _rlencode (delta_encoder.py:136-158). x[0] raises IndexError on an empty array. *)
Definition rlencode (x : list nat) : result (list nat) :=
  let lengths := diffs (run_starts x ++ [length x]) in
  match x with
  | [] => Err IndexError
  | x0 :: _ => Ok (if Nat.eqb x0 0 then O :: lengths else lengths)
  end.

(** _rldecode (delta_encoder.py:161-178): cur starts at 1 and flips after each run. *)
Fixpoint rldecode_from (cur : nat) (lengths : list nat) : list nat :=
  match lengths with
  | [] => []
  | l :: ls => repeat cur l ++ rldecode_from (1 - cur)%nat ls
  end.
Definition rldecode (lengths : list nat) : list nat := rldecode_from 1%nat lengths.

(** Channel-major flattening: np.transpose(x, [2, 0, 1]).reshape(-1)
    (delta_encoder.py:191-192 and 207-208). *)
Definition channel_major (x : image Z) : list Z :=
  transpose 0 (shape_of x) [2; 0; 1]%nat (pixels x).

(** _compute_mask (delta_encoder.py:181-194). *)
Definition compute_mask (x : image Z) : result (list nat) :=
  rlencode (map (fun v => if Z.eqb v 0 then O else 1%nat) (channel_major x)).

(** nonzero_entries[1:] - nonzero_entries[:-1], first entry kept
    (delta_encoder.py:209-212). The right hand side is evaluated into a new
    array before it is assigned, so every difference uses original values. *)
Fixpoint delta_from (prev : Z) (l : list Z) : list Z :=
  match l with
  | [] => []
  | a :: t => (a - prev) :: delta_from a t
  end.
Definition delta (l : list Z) : list Z :=
  match l with
  | [] => []
  | a :: t => a :: delta_from a t
  end.

(** _compute_residual (delta_encoder.py:197-212). *)
Definition compute_residual (x : image Z) : list Z :=
  delta (filter (fun v => negb (Z.eqb v 0)) (channel_major x)).

(** _compute_metadata (delta_encoder.py:104-121). The precisions are stored in a
    [repeated float] field; [f32] is the conversion to single precision. *)
Definition compute_metadata (f32 : Q -> Q) (ps : list Q) (sh : list nat)
  : result (list nat * list Q) :=
  if existsb (fun dim => Z.ltb (2 ^ 16 - 1) (Z.of_nat dim)) sh then Err ValueError
  else Ok (sh, map f32 ps).

(** Normalisation and validation of quant_precision (delta_encoder.py:43-61). *)
Definition check_precision (arg : precision_arg) (num_channel : nat) : result (list Q) :=
  match arg with
  | OneNumber p =>
      if Qle_bool p 0 then Err ValueError else Ok (repeat p num_channel)
  | ManyNumbers ps =>
      if negb (Nat.eqb (length ps) num_channel) then Err ValueError
      else if existsb (fun p => Qle_bool p 0) ps then Err ValueError
      else Ok ps
  end.

(** The loop over channels that replaces every value by round(value / precision)
    (delta_encoder.py:63-68). The value at flat position k belongs to channel
    k mod num_channel. *)
Definition quantize (ps : list Q) (x : image Q) : image Z :=
  {| rows := rows x; cols := cols x; chans := chans x;
     pixels := tabulate (length (pixels x))
       (fun k => round_half_even (nth k (pixels x) 0 / nth (k mod chans x)%nat ps 1)%Q) |}.

(** compress (delta_encoder.py:27-74). The second component of the result is the
    caller's array after the call: range_image_round aliases range_image
    (line 63), so the rounded values are written into it. *)
Definition compress (f32 : Q -> Q) (x : image Q) (arg : precision_arg)
  : result (message * image Q) :=
  do ps <- check_precision arg (chans x);
  let xr := quantize ps x in
  do m <- compute_mask xr;
  do md <- compute_metadata f32 ps (shape_of x);
  Ok ({| residual := compute_residual xr; mask := m;
         meta_shape := fst md; meta_precision := snd md |},
      {| rows := rows x; cols := cols x; chans := chans x;
         pixels := map inject_Z (pixels xr) |}).

(** np.cumsum (delta_encoder.py:94). *)
Fixpoint cumsum_from (acc : Z) (l : list Z) : list Z :=
  match l with
  | [] => []
  | a :: t => (acc + a) :: cumsum_from (acc + a) t
  end.
Definition cumsum (l : list Z) : list Z := cumsum_from 0 l.

(** decoded_mask[decoded_mask > 0] = decoded_residuals (delta_encoder.py:95).
    numpy raises ValueError when the number of selected entries differs from the
    number of values (a single value would be broadcast). *)
Fixpoint fill (m : list nat) (vals : list Z) : list Z :=
  match m with
  | [] => []
  | O :: m' => 0 :: fill m' vals
  | S _ :: m' =>
      match vals with
      | [] => 0 :: fill m' []
      | v :: vs => v :: fill m' vs
      end
  end.
Definition assign_masked (m : list nat) (vals : list Z) : result (list Z) :=
  let n := length (filter (fun b => Nat.ltb 0 b) m) in
  if Nat.eqb (length vals) n then Ok (fill m vals)
  else match vals with
       | [v] => Ok (fill m (repeat v n))
       | _ => Err ValueError
       end.

(** decompress (delta_encoder.py:77-101). *)
Definition decompress (msg : message) : result (image Q) :=
  match meta_shape msg with
  | [h; w; c] =>
      do flat <- assign_masked (rldecode (mask msg)) (cumsum (residual msg));
      if negb (Nat.eqb (length flat) (c * h * w)) then Err ValueError else
      let hwc := transpose 0 [c; h; w] [1; 2; 0]%nat flat in
      if Nat.ltb (length (meta_precision msg)) c then Err IndexError else
      Ok {| rows := h; cols := w; chans := c;
            pixels := tabulate (length hwc)
              (fun k => (inject_Z (nth k hwc 0%Z) * nth (k mod c)%nat (meta_precision msg) 1)%Q) |}
  | _ => Err IndexError
  end.
