(** Proofs about the colors of flow. *)
From Coq Require Import Reals Lra Psatz List Arith Lia.
From Verif Require Import Base ResultLib GeomModel GeomBase FrameModel FvisModel FvisSpec FvisProofs FvisFlow.
Import ListNotations.
Open Scope R_scope.

Lemma clip_one x : 1 <= x -> clip01 x = 1.
Proof. intros H. unfold clip01. rewrite Rmax_left by lra. apply Rmin_right. lra. Qed.
Lemma clip_zero x : x <= 0 -> clip01 x = 0.
Proof. intros H. unfold clip01. rewrite Rmax_right by lra. apply Rmin_left. lra. Qed.
Lemma clip_id x : 0 <= x <= 1 -> clip01 x = x.
Proof. intros H. unfold clip01. rewrite Rmax_left by lra. apply Rmin_left. lra. Qed.
Ltac clip := first [apply clip_one; lra | apply clip_zero; lra | rewrite clip_id by lra; lra].
Ltac abs_cases := repeat match goal with |- context [Rabs ?x] => first [rewrite (Rabs_pos_eq x) by lra | rewrite (Rabs_left1 x) by lra] end.

(** The formula of the conversion is the color circle. *)
Lemma circle_spec h : 0 <= h <= 1 -> circle h (clip01 (Rabs (h * 6 - 3) - 1), clip01 (- Rabs (h * 6 - 2) + 2), clip01 (- Rabs (h * 6 - 4) + 2)).
Proof.
  intros H. unfold circle.
  destruct (Rle_or_lt (6 * h) 1); [left; split; [lra|]; abs_cases; f_equal; [f_equal|]; clip|].
  destruct (Rle_or_lt (6 * h) 2); [right; left; split; [lra|]; abs_cases; f_equal; [f_equal|]; clip|].
  destruct (Rle_or_lt (6 * h) 3); [right; right; left; split; [lra|]; abs_cases; f_equal; [f_equal|]; clip|].
  destruct (Rle_or_lt (6 * h) 4); [right; right; right; left; split; [lra|]; abs_cases; f_equal; [f_equal|]; clip|].
  destruct (Rle_or_lt (6 * h) 5); [right; right; right; right; left; split; [lra|]; abs_cases; f_equal; [f_equal|]; clip|].
  right; right; right; right; right. split; [lra|]; abs_cases; f_equal; [f_equal|]; clip.
Qed.
Theorem rgb_spec h s : 0 <= h <= 1 -> exists p, circle h p /\ tinted s p (hsv_to_rgb (h, s, 1)).
Proof.
  intros H. eexists. split; [apply circle_spec; exact H|]. unfold tinted, hsv_to_rgb, red, green, blue. cbn [fst snd]. split; [ring|split; ring].
Qed.
Ltac circle_cases H := destruct H as [[? ->]|[[? ->]|[[? ->]|[[? ->]|[[? ->]|[? ->]]]]]].
Theorem circle_unique h p q : circle h p -> circle h q -> p = q.
Proof. intros A B. circle_cases A; circle_cases B; f_equal; try (f_equal; lra); try lra. Qed.
Theorem circle_range h p : circle h p -> in01_rgb p /\ Rmax (red p) (Rmax (green p) (blue p)) = 1 /\ Rmin (red p) (Rmin (green p) (blue p)) = 0.
Proof.
  intros A. unfold in01_rgb, in01. circle_cases A; unfold red, green, blue; cbn [fst snd]; (split; [lra|]); unfold Rmax, Rmin; repeat destruct (Rle_dec _ _); lra.
Qed.
Theorem tinted_range s p q : in01 s -> in01_rgb p -> tinted s p q -> in01_rgb q.
Proof. unfold in01_rgb, in01, tinted. intros S (A & B & C) (-> & -> & ->). split; [nra|split; nra]. Qed.
(** A color tells the direction and the strength. *)
Lemma color_inj h s h' s' p p' q : 0 <= h < 1 -> 0 <= h' < 1 -> in01 s -> in01 s' -> circle h p -> circle h' p' -> tinted s p q -> tinted s' p' q -> s = s' /\ (s = 0 \/ h = h').
Proof.
  unfold in01. intros H H' S S' C C' T T'. assert (E : s = s').
  { destruct (circle_range h p C) as ((A1 & A2 & A3) & _ & M). destruct (circle_range h' p' C') as ((B1 & B2 & B3) & _ & M'). unfold in01 in *.
    destruct T as (T1 & T2 & T3). destruct T' as (U1 & U2 & U3).
    unfold Rmin in M, M'. repeat destruct (Rle_dec _ _); nra. }
  split; [exact E|]. subst s'. destruct (Req_dec s 0) as [Z|Z]; [left; exact Z|right].
  assert (EP : red p = red p' /\ green p = green p' /\ blue p = blue p').
  { destruct T as (T1 & T2 & T3). destruct T' as (U1 & U2 & U3). split; [|split]; apply (Rmult_eq_reg_l s); lra. }
  destruct EP as (E1 & E2 & E3). circle_cases C; circle_cases C'; unfold red, green, blue in *; cbn [fst snd] in *; lra.
Qed.

(** ** The overlays *)
Lemma gray_layer eps a p : 0 <= eps -> darkened ((1 - a) / (1 + eps)) p (add_grayscale_layer eps a p).
Proof.
  intros E. destruct p as [[x y] z]. unfold add_grayscale_layer, alpha_blend, gray. rewrite !blend_opaque by exact E. unfold darkened, red, green, blue, over. cbn [fst snd].
  split; [|split]; field; lra.
Qed.
Lemma overlay_nth eps a : forall p i x q, nth_error a i = Some x -> nth_error p i = Some q -> nth_error (overlay eps a p) i = Some (add_grayscale_layer eps x q).
Proof.
  induction a as [|y a IH]; intros [|r p] [|i] x q A P; try discriminate; [cbn in A, P; cbn [overlay nth_error]; congruence|]. cbn [overlay nth_error]. apply IH; assumption.
Qed.
Lemma overlays_at eps a : forall p b i x q, at2 a b i = Some x -> at2 p b i = Some q -> at2 (overlays eps a p) b i = Some (add_grayscale_layer eps x q).
Proof.
  induction a as [|y a IH]; intros [|r p] [|b] i x q A P; try discriminate; unfold at2 in *; cbn [overlays nth_error] in *.
  - apply overlay_nth; assumption.
  - apply (IH p b i x q); assumption.
Qed.
Lemma at2_map {A B} (f : A -> B) l b i : at2 (map (map f) l) b i = option_map f (at2 l b i).
Proof. unfold at2. rewrite nth_error_map. destruct (nth_error l b); cbn [option_map]; [apply nth_error_map|reflexivity]. Qed.
Lemma overlays_sizes eps a : forall p, same_sizes a p -> same_sizes (overlays eps a p) p.
Proof.
  unfold same_sizes. induction a as [|y a IH]; intros [|r p] S; try discriminate; [reflexivity|]. cbn [map overlays] in *. injection S as S1 S2. f_equal; [|apply IH; exact S2].
  clear - S1. revert r S1. induction y as [|x y IH]; intros [|q r] S; try discriminate; [reflexivity|]. cbn [overlay List.length] in *. rewrite IH by lia. reflexivity.
Qed.

(** ** The whole image *)
Theorem flow_outcome : forall eps shape flows roads trails, (exists r, flow_rgb_image eps shape flows roads trails = Ok r) <-> well_shaped shape.
Proof.
  intros eps shape flows roads trails. rewrite <- (hsv_outcome shape (map (map (fun f => (snd f, fst f))) flows) (-1)). unfold flow_rgb_image, optical_flow_to_rgb.
  destruct (optical_flow_to_hsv _ _ _); cbn [bind]; split; intros [r H]; try discriminate; eexists; reflexivity.
Qed.
Theorem flow_error : forall eps shape flows roads trails e, flow_rgb_image eps shape flows roads trails = Err e -> e = ValueError.
Proof.
  intros eps shape flows roads trails e. unfold flow_rgb_image, optical_flow_to_rgb. destruct (optical_flow_to_hsv _ _ _) eqn:E; cbn [bind]; [discriminate|]. intros H. injection H as <-. apply (hsv_error _ _ _ _ E).
Qed.
Theorem flow_sizes : forall eps shape flows roads trails r, flow_rgb_image eps shape flows roads trails = Ok r -> same_sizes roads flows -> same_sizes trails flows -> same_sizes r flows.
Proof.
  intros eps shape flows roads trails r H R T. assert (W : well_shaped shape) by (apply (flow_outcome eps shape flows roads trails); exists r; exact H).
  unfold flow_rgb_image, optical_flow_to_rgb in H. rewrite (hsv_ok shape _ _ W) in H. cbn [bind] in H. injection H as <-. unfold same_sizes in *.
  set (img := map (map hsv_to_rgb) (map (image_hsv (-1)) (map (map (fun f : flow => (snd f, fst f))) flows))).
  assert (SI : map (@List.length _) img = map (@List.length _) flows).
  { unfold img. rewrite !map_map. apply map_ext. intros l. unfold image_hsv. rewrite !map_length. reflexivity. }
  assert (S1 : same_sizes (overlays eps roads img) img) by (apply overlays_sizes; unfold same_sizes; etransitivity; [exact R|symmetry; exact SI]).
  assert (S2 : same_sizes (overlays eps (map (map (fun x => x * (2 / 10))) trails) (overlays eps roads img)) (overlays eps roads img)).
  { apply overlays_sizes. unfold same_sizes in *. rewrite map_map. rewrite (map_ext _ (@List.length _)) by (intros l; apply map_length). etransitivity; [exact T|]. symmetry. etransitivity; [exact S1|exact SI]. }
  unfold same_sizes in *. etransitivity; [exact S2|]. etransitivity; [exact S1|exact SI].
Qed.
Theorem flow_shows : forall eps shape flows roads trails image f road trail b i r, 0 <= eps -> flow_rgb_image eps shape flows roads trails = Ok r ->
  nth_error flows b = Some image -> nth_error image i = Some f -> at2 roads b i = Some road -> at2 trails b i = Some trail ->
  exists h s m n pure color px, at2 r b i = Some px /\ is_direction (swapped f) h /\ largest image m /\ length2 f n /\ in01 s /\ s * m = n /\ (m = 0 -> s = 0)
    /\ circle h pure /\ tinted s pure color /\ darkened ((1 - road) * (1 - 2 / 10 * trail) / (1 + eps) ^ 2) color px.
Proof.
  intros eps shape flows roads trails image f road trail b i r E H B I R T. assert (W : well_shaped shape) by (apply (flow_outcome eps shape flows roads trails); exists r; exact H).
  unfold flow_rgb_image, optical_flow_to_rgb in H. change (bind (bind (optical_flow_to_hsv shape (map (map swapped) flows) (-1)) (fun hsvs => Ok (map (map hsv_to_rgb) hsvs))) (fun image => Ok (overlays eps (map (map (fun x => x * (2 / 10))) trails) (overlays eps roads image))) = Ok r) in H.
  assert (HV := hsv_ok shape (map (map swapped) flows) (-1) W). rewrite HV in H. cbn [bind] in H. injection H as <-.
  assert (B' : nth_error (map (map swapped) flows) b = Some (map swapped image)) by (rewrite nth_error_map, B; reflexivity).
  assert (I' : nth_error (map swapped image) i = Some (swapped f)) by (rewrite nth_error_map, I; reflexivity).
  destruct (hsv_relative shape _ (-1) _ _ b i _ W ltac:(lra) HV B' I') as (h & s & m & n & P & D & M & L & S & SM & Z).
  destruct (rgb_spec h s) as (pure & C & TI); [destruct D as [D _]; lra|].
  exists h, s, m, n, pure, (hsv_to_rgb (h, s, 1)). eexists.
  assert (SW : forall g x, length2 (swapped g) x <-> length2 g x) by (intros [gx gy] x; unfold length2, swapped; cbn [fst snd]; rewrite (Rplus_comm (gy * gy)); tauto).
  assert (A1 : at2 (map (map hsv_to_rgb) (map (image_hsv (-1)) (map (map swapped) flows))) b i = Some (hsv_to_rgb (h, s, 1))) by (rewrite at2_map, P; reflexivity).
  assert (A2 := overlays_at eps roads _ b i road _ R A1).
  assert (T' : at2 (map (map (fun x => x * (2 / 10))) trails) b i = Some (trail * (2 / 10))) by (rewrite at2_map, T; reflexivity).
  split; [exact (overlays_at eps _ _ b i _ _ T' A2)|]. split; [exact D|]. split.
  { destruct M as ((g & J & LG) & U). apply in_map_iff in J. destruct J as (g0 & <- & J). split; [exists g0; split; [exact J|apply SW; exact LG]|].
    intros g1 x J1 L1. apply (U (swapped g1)); [apply in_map; exact J1|apply SW; exact L1]. }
  split; [apply SW; exact L|]. split; [exact S|]. split; [exact SM|]. split; [exact Z|]. split; [exact C|]. split; [exact TI|].
  destruct (gray_layer eps road (hsv_to_rgb (h, s, 1)) E) as (G1 & G2 & G3). destruct (gray_layer eps (trail * (2 / 10)) (add_grayscale_layer eps road (hsv_to_rgb (h, s, 1))) E) as (K1 & K2 & K3).
  unfold darkened. rewrite K1, K2, K3, G1, G2, G3. split; [|split]; field; lra.
Qed.
(** Where the same road and trails cover two pixels of an image, a color stands for one flow. *)
Theorem flow_readable : forall eps shape flows roads trails image f g road trail b i j r, 0 <= eps -> flow_rgb_image eps shape flows roads trails = Ok r ->
  nth_error flows b = Some image -> nth_error image i = Some f -> nth_error image j = Some g ->
  at2 roads b i = Some road -> at2 roads b j = Some road -> at2 trails b i = Some trail -> at2 trails b j = Some trail -> road <> 1 -> trail < 5 ->
  at2 r b i = at2 r b j -> f = g.
Proof.
  intros eps shape flows roads trails image f g road trail b i j r E H B I J R1 R2 T1 T2 NR NT EQ.
  destruct (flow_shows eps shape flows roads trails image f road trail b i r E H B I R1 T1) as (h & s & m & n & pure & color & px & P & D & M & L & S & SM & Z & C & TI & K).
  destruct (flow_shows eps shape flows roads trails image g road trail b j r E H B J R2 T2) as (h' & s' & m' & n' & pure' & color' & px' & P' & D' & M' & L' & S' & SM' & Z' & C' & TI' & K').
  rewrite P, P' in EQ. injection EQ as <-. assert (m' = m) by (rewrite (largest_max _ _ M), (largest_max _ _ M'); reflexivity). subst m'.
  set (k := (1 - road) * (1 - 2 / 10 * trail) / (1 + eps) ^ 2) in *.
  assert (NK : k <> 0). { unfold k, Rdiv. apply Rmult_integral_contrapositive_currified; [apply Rmult_integral_contrapositive_currified; lra|]. apply Rinv_neq_0_compat. apply pow_nonzero. lra. }
  assert (EC : color' = color).
  { destruct K as (K1 & K2 & K3). destruct K' as (K1' & K2' & K3'). destruct color as [[x y] z], color' as [[x' y'] z']. unfold red, green, blue in *. cbn [fst snd] in *.
    f_equal; [f_equal|]; apply (Rmult_eq_reg_l k); congruence. }
  subst color'. destruct (color_inj h s h' s' pure pure' color (proj1 D) (proj1 D') S S' C C' TI TI') as [<- HH].
  assert (NN : n' = n) by congruence. rewrite NN in L'. clear NN SM'.
  assert (SW : forall a x, length2 (swapped a) x <-> length2 a x) by (intros [ax ay] x; unfold length2, swapped; cbn [fst snd]; rewrite (Rplus_comm (ay * ay)); tauto).
  destruct HH as [->|<-].
  - assert (N0 : n = 0) by lra. rewrite N0 in L. rewrite N0 in L'. apply length2_zero in L, L'. congruence.
  - assert (X : swapped f = swapped g) by (apply (direction_inj _ _ h n); [apply SW; exact L|apply SW; exact L'|exact D|exact D']). destruct f, g. unfold swapped in X. cbn in X. congruence.
Qed.
(** All colors are between zero and one. *)
Theorem flow_range : forall eps shape flows roads trails image f road trail b i r, 0 <= eps -> flow_rgb_image eps shape flows roads trails = Ok r ->
  nth_error flows b = Some image -> nth_error image i = Some f -> at2 roads b i = Some road -> at2 trails b i = Some trail -> in01 road -> in01 trail ->
  exists px, at2 r b i = Some px /\ in01_rgb px.
Proof.
  intros eps shape flows roads trails image f road trail b i r E H B I R T UR UT.
  destruct (flow_shows eps shape flows roads trails image f road trail b i r E H B I R T) as (h & s & m & n & pure & color & px & P & D & M & L & S & SM & Z & C & TI & K).
  exists px. split; [exact P|]. destruct (circle_range h pure C) as (CR & _). assert (TR := tinted_range s pure color S CR TI).
  assert (KR : 0 <= (1 - road) * (1 - 2 / 10 * trail) / (1 + eps) ^ 2 <= 1).
  { unfold in01 in *. assert (X : 0 <= (1 - road) * (1 - 2 / 10 * trail) <= 1) by (split; nra). assert (Y : 1 <= (1 + eps) ^ 2) by (cbn [pow]; nra).
    assert (I0 : 0 < / (1 + eps) ^ 2) by (apply Rinv_0_lt_compat; lra). assert (I1 : / (1 + eps) ^ 2 <= 1) by (rewrite <- Rinv_1; apply Rinv_le_contravar; lra). unfold Rdiv. split; nra. }
  destruct K as (K1 & K2 & K3). destruct TR as (A & A2 & A3). unfold in01_rgb, in01 in *. rewrite K1, K2, K3. split; [nra|split; nra].
Qed.
