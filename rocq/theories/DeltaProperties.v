(** Properties C01, C02, C03: the delta codec for range images. *)
From Verif Require Import Base NdArray DeltaModel DeltaSpec DeltaProofs.
Open Scope nat_scope.

(** C01. Every admissible image is compressed, the result decompresses to an image of the
    same shape, and each pixel becomes its nearest multiple of the stored precision. *)
Theorem C01_delta_codec_roundtrip : forall f32 (x : image Q) arg,
  well_shaped x -> pixels x <> [] -> small_dims x -> admissible arg (chans x) ->
  exists msg x' y,
    compress f32 x arg = Ok (msg, x') /\ decompress msg = Ok y /\
    rows y = rows x /\ cols y = cols x /\ chans y = chans x /\ well_shaped y /\
    (forall i j ch, i < rows x -> j < cols x -> ch < chans x ->
      exists n, nearest_even (pixel 0%Q x i j ch / asked_precision arg ch) n /\
        pixel 0%Q y i j ch = (inject_Z n * f32 (asked_precision arg ch))%Q).
Proof. exact codec_roundtrip_pixels. Qed.
Print Assumptions C01_delta_codec_roundtrip.

(** C01, rejected inputs. *)
Theorem C01_bad_precision_rejected : forall f32 (x : image Q) arg,
  ~ admissible arg (chans x) -> compress f32 x arg = Err ValueError.
Proof. exact compress_rejects. Qed.
Print Assumptions C01_bad_precision_rejected.

Theorem C01_large_dimension_rejected : forall f32 (x : image Q) arg,
  well_shaped x -> pixels x <> [] -> admissible arg (chans x) -> ~ small_dims x ->
  compress f32 x arg = Err ValueError.
Proof. exact compress_rejects_large. Qed.
Print Assumptions C01_large_dimension_rejected.

(** C01, negative result: the caller's array is overwritten by compress. *)
Theorem C01_input_preserved_refuted : forall f32,
  exists (x : image Q) arg msg x',
    well_shaped x /\ admissible arg (chans x) /\ compress f32 x arg = Ok (msg, x') /\
    ~ (forall k, (nth k (pixels x') 0 == nth k (pixels x) 0)%Q).
Proof. exact compress_mutates_input. Qed.
Print Assumptions C01_input_preserved_refuted.

(** C02. Run length coding. *)
Theorem C02_rle_roundtrip : forall x,
  binary x -> x <> [] ->
  exists lengths, rlencode x = Ok lengths /\ rldecode lengths = x /\
    canonical_runs lengths /\ fold_right Nat.add 0 lengths = length x.
Proof. exact rlencode_spec. Qed.
Print Assumptions C02_rle_roundtrip.

Theorem C02_rle_bijection : forall ls,
  canonical_runs ls -> rlencode (rldecode ls) = Ok ls.
Proof. exact rle_bijection. Qed.
Print Assumptions C02_rle_bijection.

(** C03. Worst case error and lossless recompression. *)
Theorem C03_error_at_most_half_precision : forall f32 (x : image Q) arg,
  (forall ch, ch < chans x -> (f32 (asked_precision arg ch) == asked_precision arg ch)%Q) ->
  well_shaped x -> pixels x <> [] -> small_dims x -> admissible arg (chans x) ->
  exists msg x' y,
    compress f32 x arg = Ok (msg, x') /\ decompress msg = Ok y /\
    forall i j ch, i < rows x -> j < cols x -> ch < chans x ->
      (Qabs (pixel 0%Q x i j ch - pixel 0%Q y i j ch) <= asked_precision arg ch / 2)%Q.
Proof. exact codec_error_bound. Qed.
Print Assumptions C03_error_at_most_half_precision.

Theorem C03_quantised_image_lossless : forall f32 (x : image Q) arg,
  (forall ch, ch < chans x -> (f32 (asked_precision arg ch) == asked_precision arg ch)%Q) ->
  well_shaped x -> pixels x <> [] -> small_dims x -> admissible arg (chans x) ->
  (forall i j ch, i < rows x -> j < cols x -> ch < chans x ->
     exists z, (pixel 0%Q x i j ch == inject_Z z * asked_precision arg ch)%Q) ->
  exists msg x' y,
    compress f32 x arg = Ok (msg, x') /\ decompress msg = Ok y /\
    forall i j ch, i < rows x -> j < cols x -> ch < chans x ->
      (pixel 0%Q y i j ch == pixel 0%Q x i j ch)%Q.
Proof. exact codec_idempotent. Qed.
Print Assumptions C03_quantised_image_lossless.

(** ** Non-vacuity: a 2x2 image with two channels, zeros and negative values. *)
Definition sample : image Q :=
  {| rows := 2; cols := 2; chans := 2;
     pixels := [0#1; 3#1; 7#2; -1#1; 0#1; 0#1; 9#4; 5#1]%Q |}.

Example sample_meets_hypotheses :
  well_shaped sample /\ pixels sample <> [] /\ small_dims sample /\
  admissible (ManyNumbers [1#2; 2#1]%Q) (chans sample).
Proof.
  split; [reflexivity|]. split; [discriminate|]. split.
  - unfold small_dims; simpl; lia.
  - split; [reflexivity|]. repeat constructor.
Qed.

Example sample_compresses :
  match compress (fun q => q) sample (ManyNumbers [1#2; 2#1]%Q) with
  | Ok (m, _) => (mask m, residual m)
  | Err _ => ([], [])
  end = ([0; 1; 1; 1; 2; 2; 1], [7; -3; -2; 0]%Z).
Proof. vm_compute. reflexivity. Qed.

Example rle_example : rlencode [0; 0; 1; 1; 1; 0] = Ok [0; 2; 3; 1] /\ canonical_runs [0; 2; 3; 1].
Proof. split; [reflexivity|]. simpl. repeat constructor. Qed.
