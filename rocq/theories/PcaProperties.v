(** The codec of camera rays: the properties. *)
From Coq Require Import Reals Lra Lia.
From Verif Require Import Base ResultLib NdArray TilingModel TilingSpec PcaModel PcaSpec PcaLinear PcaTiles PcaCodec PcaAsset.
Open Scope R_scope.

(** ** C96: quantization steps *)
Theorem C96_nearest_step : forall v q, 0 < q -> exists k, quantize v q = Ok k /\ int32 k /\
  (IZR (- 2 ^ 31) * q <= v <= IZR (2 ^ 31 - 1) * q -> nearest (v / q) k /\ Rabs (q * IZR k - v) <= q / 2) /\
  (v < IZR (- 2 ^ 31) * q -> k = (- 2 ^ 31)%Z) /\ (IZR (2 ^ 31 - 1) * q < v -> k = (2 ^ 31 - 1)%Z).
Proof. exact quantize_facts. Qed.
Print Assumptions C96_nearest_step.
Theorem C96_stable : forall q k, 0 < q -> int32 k -> quantize (q * IZR k) q = Ok k.
Proof. exact requantize. Qed.
Print Assumptions C96_stable.
Theorem C96_bad_step : forall v, quantize v 0 = Err RuntimeError /\ forall q, q < 0 -> quantize v q = Ok (- 2 ^ 31)%Z.
Proof. exact bad_step. Qed.
Print Assumptions C96_bad_step.
Theorem C96_buckets : forall data ns, data <> [] -> Forall (fun row => (length ns <= length row)%nat) data -> Forall (fun n => (0 < n)%nat) ns ->
  exists qs, bucketed_quantization data ns = Ok qs /\ length qs = length ns /\
    forall i, (i < length ns)%nat ->
      (forall row, In row data -> Rabs (at_ row i) <= INR (nth i ns 0%nat) * at_ qs i) /\
      (exists row, In row data /\ Rabs (at_ row i) = INR (nth i ns 0%nat) * at_ qs i) /\
      (forall row k, In row data -> (INR (nth i ns 0%nat) <= IZR (2 ^ 31 - 1)) -> quantize (at_ row i) (at_ qs i) = Ok k ->
         (Z.abs k <= Z.of_nat (nth i ns 0%nat))%Z) /\
      (at_ qs i = 0 <-> forall row, In row data -> at_ row i = 0).
Proof. exact buckets. Qed.
Print Assumptions C96_buckets.
Theorem C96_zero_component_refuted : exists data ns qs, data <> [] /\ Forall (fun n => (0 < n)%nat) ns /\ bucketed_quantization data ns = Ok qs /\
  exists i row, In row data /\ (i < length ns)%nat /\ quantize (at_ row i) (at_ qs i) = Err RuntimeError.
Proof. exact zero_component_refuted. Qed.
Print Assumptions C96_zero_component_refuted.
Example C96_case : exists qs, bucketed_quantization [[1; -4]; [2; 3]] [2; 4]%nat = Ok qs /\ at_ qs 0 <> 0 /\ int32 7.
Proof. exact buckets_case. Qed.

(** ** C97: coding an image *)
Theorem C97_encode : forall cfg t h w c, config_fits cfg c -> image t h w c -> pad_allowed h (tile_sz cfg) -> pad_allowed w (tile_sz cfg) ->
  exists e, encode cfg t = Ok e /\ shape e = [h; w; c] /\ length (reference e) = c /\
    (forall ch, (ch < c)%nat -> at_ (reference e) ch = average t h w c ch) /\
    length (quantized_values e) = (ceil_div h (tile_sz cfg) * ceil_div w (tile_sz cfg))%nat /\
    Forall (fun r => length r = length (quantization cfg) /\ Forall int32 r) (quantized_values e) /\
    forall ty tx v i, (ty < ceil_div h (tile_sz cfg))%nat -> (tx < ceil_div w (tile_sz cfg))%nat -> (i < length (quantization cfg))%nat ->
      tile_vector t h w c (tile_sz cfg) (ty * tile_sz cfg) (tx * tile_sz cfg) v ->
      quantize (coefficient (pca cfg) v i) (at_ (quantization cfg) i) =
        Ok (nth i (nth (ty * ceil_div w (tile_sz cfg) + tx) (quantized_values e) []) 0%Z).
Proof. exact encode_value. Qed.
Print Assumptions C97_encode.
Theorem C97_decode : forall cfg c h w rest d, config_fits cfg c -> shape d = h :: w :: rest -> length (reference d) = c ->
  length (quantized_values d) = (ceil_div h (tile_sz cfg) * ceil_div w (tile_sz cfg))%nat ->
  Forall (fun r => length r = length (quantization cfg)) (quantized_values d) ->
  exists out, decode cfg d = Ok out /\ image out h w c /\
    forall y x ch, (y < h)%nat -> (x < w)%nat -> (ch < c)%nat ->
      pixel out w c y x ch = at_ (reference d) ch +
        decoded_vector cfg (nth (y / tile_sz cfg * ceil_div w (tile_sz cfg) + x / tile_sz cfg) (quantized_values d) []) (place (tile_sz cfg) c y x ch).
Proof. exact decode_value. Qed.
Print Assumptions C97_decode.
Theorem C97_round_trip : forall cfg t h w c, config_fits cfg c -> image t h w c -> pad_allowed h (tile_sz cfg) -> pad_allowed w (tile_sz cfg) ->
  exists e out, encode cfg t = Ok e /\ decode cfg e = Ok out /\ image out h w c /\
    (unsaturated e -> forall y x ch v, (y < h)%nat -> (x < w)%nat -> (ch < c)%nat ->
      tile_vector t h w c (tile_sz cfg) (y / tile_sz cfg * tile_sz cfg) (x / tile_sz cfg * tile_sz cfg) v ->
      let k := place (tile_sz cfg) c y x ch in
      Rabs (pixel out w c y x ch - (average t h w c ch + built (pca cfg) (coefficient (pca cfg) v) k)) <= step_error cfg k) /\
    (unsaturated e -> spanning (pca cfg) -> forall y x ch, (y < h)%nat -> (x < w)%nat -> (ch < c)%nat ->
      Rabs (pixel out w c y x ch - pixel t w c y x ch) <= step_error cfg (place (tile_sz cfg) c y x ch)).
Proof. exact round_trip. Qed.
Print Assumptions C97_round_trip.
Theorem C97_codes_stable : forall cfg c ks, config_fits cfg c -> orthonormal (pca cfg) -> length ks = length (quantization cfg) -> Forall int32 ks ->
  exists vs row cs, inv_quantize_row cfg ks = Ok vs /\ inverse_transform (pca cfg) vs = Ok row /\
    transform (pca cfg) row = Ok cs /\ quantize_row cfg cs = Ok ks.
Proof. exact row_stable. Qed.
Print Assumptions C97_codes_stable.
Theorem C97_least_misfit : forall p m v c, fits p m -> orthonormal p -> misfit p v (coefficient p v) <= misfit p v c.
Proof. exact least_misfit. Qed.
Print Assumptions C97_least_misfit.
Theorem C97_shift : forall cfg t t' h w c by_ e, image t h w c -> image t' h w c -> (0 < h)%nat -> (0 < w)%nat ->
  shifted t t' h w c by_ -> encode cfg t = Ok e ->
  exists e', encode cfg t' = Ok e' /\ quantized_values e' = quantized_values e /\ shape e' = shape e /\
    length (reference e') = length (reference e) /\ forall ch, (ch < c)%nat -> at_ (reference e') ch = at_ (reference e) ch + by_ ch.
Proof. exact shift_invariant. Qed.
Print Assumptions C97_shift.
Theorem C97_drift_refuted : exists cfg, config_fits cfg 1 /\ orthonormal (pca cfg) /\ spanning (pca cfg) /\
  exists images : nat -> tensor R,
    (forall n, image (images n) 1 1 1) /\
    (forall n, exists e, encode cfg (images n) = Ok e /\ unsaturated e /\ decode cfg e = Ok (images (S n))) /\
    (forall n, pixel (images n) 1 1 0 0 0 - pixel (images O) 1 1 0 0 0 = INR n * (3 / 10)).
Proof. exact repeated_coding_drifts_refuted. Qed.
Print Assumptions C97_drift_refuted.
Example C97_case : forall c q, (0 < c)%nat -> 0 < q -> config_fits (plain_config c q) c /\ orthonormal (pca (plain_config c q)) /\ spanning (pca (plain_config c q)).
Proof. exact plain_config_ok. Qed.

(** ** C98: ray components *)
Theorem C98_round_trip : forall K cfg (src : ray_component K) o d h w, config_fits cfg 6 ->
  ray_origin src = Some o -> ray_direction src = Some d -> image o h w 3 -> image d h w 3 ->
  pad_allowed h (tile_sz cfg) -> pad_allowed w (tile_sz cfg) ->
  exists z out o' d', asset_encode cfg src = Ok z /\ asset_decode cfg z = Ok out /\
    comp_key z = ray_key src /\ comp_shape z = [h; w; 6%nat] /\ length (comp_reference z) = 6%nat /\
    length (comp_values z) = (ceil_div h (tile_sz cfg) * ceil_div w (tile_sz cfg) * length (quantization cfg))%nat /\
    ray_key out = ray_key src /\ ray_origin out = Some o' /\ ray_direction out = Some d' /\ image o' h w 3 /\ image d' h w 3 /\
    (Forall (fun k => ~ saturated k) (comp_values z) -> spanning (pca cfg) ->
     forall y x ch, (y < h)%nat -> (x < w)%nat -> (ch < 3)%nat ->
       Rabs (pixel o' w 3 y x ch - pixel o w 3 y x ch) <= step_error cfg (place (tile_sz cfg) 6 y x ch) /\
       Rabs (pixel d' w 3 y x ch - pixel d w 3 y x ch) <= step_error cfg (place (tile_sz cfg) 6 y x (3 + ch))).
Proof. exact asset_round_trip. Qed.
Print Assumptions C98_round_trip.
Theorem C98_errors : forall K cfg (src : ray_component K) (z : compressed_component K),
  (ray_origin src = None \/ ray_direction src = None -> asset_encode cfg src = Err AssertionError) /\
  ((length (comp_values z) mod length (quantization cfg) <> 0)%nat -> (0 < length (quantization cfg))%nat -> asset_decode cfg z = Err ValueError).
Proof. exact asset_errors. Qed.
Print Assumptions C98_errors.
Example C98_case : config_fits (plain_config 6 (/ 100)) 6 /\ spanning (pca (plain_config 6 (/ 100))) /\ pad_allowed 5 (tile_sz (plain_config 6 (/ 100))) /\
  image {| tshape := [1; 1; 3]%nat; telems := [1; 2; 3] |} 1 1 3.
Proof.
  destruct (plain_config_ok 6 (/ 100)) as (A & _ & B); [lia|lra|]. split; [exact A|]. split; [exact B|]. split; [vm_compute; lia|]. split; reflexivity.
Qed.
