(** Proofs about images of flow. *)
From Coq Require Import Reals Lra Psatz List Arith Lia.
From Verif Require Import Base ResultLib GeomModel GeomBase FrameModel FrameProofs LidSpec LidBeams FvisModel FvisSpec FvisProofs.
Import ListNotations.
Open Scope R_scope.

(** ** Hue *)
Lemma int_part_is r z : IZR z <= r < IZR z + 1 -> Int_part r = z.
Proof.
  intros H. unfold Int_part. assert (U := tech_up r (z + 1)). rewrite <- U; [lia| |]; rewrite plus_IZR; lra.
Qed.
Lemma hue_value a : - PI < a <= PI -> exists h, floor_mod a (2 * PI) / (2 * PI) = h /\ 0 <= h < 1 /\ ((0 <= a /\ 2 * PI * h = a) \/ (a < 0 /\ 2 * PI * h = a + 2 * PI)).
Proof.
  intros A. pose proof PI_RGT_0 as P. exists (floor_mod a (2 * PI) / (2 * PI)). split; [reflexivity|]. unfold floor_mod.
  assert (I : 0 < / (2 * PI)) by (apply Rinv_0_lt_compat; lra). assert (J : a / (2 * PI) * (2 * PI) = a) by (field; lra). set (q := a / (2 * PI)) in *.
  destruct (Rle_or_lt 0 a) as [N|N].
  - assert (Q : 0 <= q < 1) by (split; nra). rewrite (int_part_is q 0) by (cbn; lra). cbn [IZR]. replace (a - 2 * PI * 0) with a by ring. fold q. split; [exact Q|]. left. split; [exact N|]. lra.
  - assert (Q : -1 < q < 0) by (split; nra). rewrite (int_part_is q (-1)) by (change (IZR (-1)) with (-1); lra).
    replace ((a - 2 * PI * -1) / (2 * PI)) with (q + 1) by (unfold q; field; lra). split; [lra|]. right. split; [exact N|]. lra.
Qed.
Lemma magnitude_spec f : length2 f (magnitude f).
Proof. unfold length2, magnitude. split; [apply sqrt_pos|]. apply sqrt_sqrt. nra. Qed.
Lemma length2_unique f m n : length2 f m -> length2 f n -> m = n.
Proof. intros [A B] [C D]. nra. Qed.
Lemma length2_zero f : length2 f 0 -> f = (0, 0).
Proof. intros [_ H]. destruct f as [x y]. cbn [fst snd] in H. assert (x = 0) by nra. assert (y = 0) by nra. subst. reflexivity. Qed.
Lemma hue_spec m f : exists h s, flow_hsv m f = (h, s, 1) /\ is_direction f h /\ s = Rmin (divide_no_nan (magnitude f) m) 1.
Proof.
  destruct (atan2_angle (snd f) (fst f)) as [A B]. destruct (hue_value _ A) as (h & E & H & C). unfold flow_hsv. rewrite E. exists h. eexists. split; [reflexivity|]. split; [|reflexivity].
  split; [exact H|]. assert (T : cos (2 * PI * h) = cos (atan2 (snd f) (fst f)) /\ sin (2 * PI * h) = sin (atan2 (snd f) (fst f))).
  { destruct C as [[_ ->]|[_ ->]]; [split; reflexivity|]. rewrite cos_plus, sin_plus, cos_2PI, sin_2PI. split; ring. }
  destruct T as [TC TS]. set (a := atan2 (snd f) (fst f)) in *. clearbody a. destruct B as [(rho & R0 & BX & BY)|(BX & BY & Z)].
  - left. exists rho. rewrite TC, TS. split; [|split; [exact R0|split; assumption]]. split; [lra|]. rewrite BX, BY. pose proof (sin2_cos2 a) as S. unfold Rsqr in S. replace (rho * cos a * (rho * cos a) + rho * sin a * (rho * sin a)) with (rho * rho * (sin a * sin a + cos a * cos a)) by ring. rewrite S. ring.
  - right. split; [destruct f; cbn in *; subst; reflexivity|]. rewrite Z in C. pose proof PI_RGT_0. destruct C as [[_ C]|[C _]]; nra.
Qed.
(** The direction and the length give the flow. *)
Lemma direction_inj f g h m : length2 f m -> length2 g m -> is_direction f h -> is_direction g h -> f = g.
Proof.
  intros F G [_ D] [_ D']. destruct D as [(m1 & L1 & P1 & X1 & Y1)|[-> _]]; destruct D' as [(m2 & L2 & P2 & X2 & Y2)|[-> _]]; [| | |reflexivity].
  - assert (m1 = m) by (apply (length2_unique f); assumption). assert (m2 = m) by (apply (length2_unique g); assumption). subst m1 m2. destruct f, g. cbn in *. congruence.
  - assert (m1 = m) by (apply (length2_unique f); assumption). assert (m = 0) by (destruct G; cbn in *; nra). lra.
  - assert (m2 = m) by (apply (length2_unique g); assumption). assert (m = 0) by (destruct F; cbn in *; nra). lra.
Qed.
Theorem direction_unique f h h' : is_direction f h -> is_direction f h' -> h = h'.
Proof.
  intros [H D] [H' D']. destruct D as [(m1 & L1 & P1 & X1 & Y1)|[E ->]]; destruct D' as [(m2 & L2 & P2 & X2 & Y2)|[E' ->]].
  - assert (m1 = m2) by (apply (length2_unique f); assumption). subst m2. pose proof PI_RGT_0 as P. set (a := 2 * PI * h) in *. set (b := 2 * PI * h') in *.
    assert (C : cos a = cos b) by nra. assert (S : sin a = sin b) by nra. assert (Z : a - b = 0).
    { apply cos_one; [|unfold a, b; split; nra]. rewrite cos_minus, C, S. pose proof (sin2_cos2 b) as Q. unfold Rsqr in Q. lra. }
    unfold a, b in Z. apply (Rmult_eq_reg_l (2 * PI)); lra.
  - subst f. destruct L1 as [_ L]. cbn in L. nra.
  - subst f. destruct L2 as [_ L]. cbn in L. nra.
  - reflexivity.
Qed.

(** ** The largest length *)
Lemma max_spec image : (forall f, In f image -> magnitude f <= reduce_max (map magnitude image)) /\ 0 <= reduce_max (map magnitude image)
  /\ (image <> [] -> exists f, In f image /\ magnitude f = reduce_max (map magnitude image)).
Proof.
  induction image as [|f l (IH1 & IH0 & IH2)]; [split; [intros f []|split; [cbn; lra|congruence]]|].
  cbn [map]. unfold reduce_max in *. cbn [fold_right]. split; [|split].
  - intros g [<-|I]; [apply Rmax_l|]. eapply Rle_trans; [apply (IH1 g I)|apply Rmax_r].
  - eapply Rle_trans; [exact IH0|apply Rmax_r].
  - intros _. destruct (Rle_or_lt (fold_right Rmax 0 (map magnitude l)) (magnitude f)) as [L|L].
    + exists f. split; [left; reflexivity|]. rewrite Rmax_left by exact L. reflexivity.
    + destruct l as [|g l']; [cbn in L; pose proof (proj1 (magnitude_spec f)); lra|]. destruct (IH2 ltac:(discriminate)) as (x & I & E). exists x. split; [right; exact I|].
      rewrite Rmax_right by lra. exact E.
Qed.
Theorem largest_exists image : image <> [] -> exists m, largest image m.
Proof.
  intros N. destruct (max_spec image) as (A & _ & B). destruct (B N) as (f & I & E). exists (magnitude f). split; [exists f; split; [exact I|apply magnitude_spec]|].
  intros g n J L. rewrite (length2_unique g n (magnitude g) L (magnitude_spec g)), E. apply A. exact J.
Qed.
Lemma largest_max image m : largest image m -> m = reduce_max (map magnitude image).
Proof.
  intros ((f & I & L) & U). destruct (max_spec image) as (A & _ & B). assert (N : image <> []) by (intros ->; destruct I). destruct (B N) as (g & J & E).
  apply Rle_antisym; [rewrite (length2_unique f m (magnitude f) L (magnitude_spec f)); apply A; exact I|]. rewrite <- E. apply (U g _ J (magnitude_spec g)).
Qed.

(** ** The outcome, and each pixel *)
Theorem hsv_outcome : forall shape (flows : list (list flow)) sat, (exists r, optical_flow_to_hsv shape flows sat = Ok r) <-> well_shaped shape.
Proof.
  intros shape flows sat. unfold optical_flow_to_hsv, well_shaped. destruct (Nat.ltb_spec (List.length shape) 3) as [L|L]; [split; [intros [r H]; discriminate|intros [H _]; lia]|].
  destruct (Nat.eqb_spec (last shape 0%nat) 2) as [E|E]; cbn [negb].
  - split; [intros _|intros _; eexists; reflexivity]. split; [exact L|]. exists (removelast shape). rewrite <- E. apply app_removelast_last. intros ->. cbn in L. lia.
  - split; [intros [r H]; discriminate|]. intros [_ [front ->]]. rewrite last_last in E. congruence.
Qed.
Theorem hsv_error : forall shape (flows : list (list flow)) sat e, optical_flow_to_hsv shape flows sat = Err e -> e = ValueError.
Proof. intros shape flows sat e. unfold optical_flow_to_hsv. destruct (Nat.ltb _ _); [congruence|]. destruct (negb _); congruence. Qed.
Lemma hsv_ok shape flows sat : well_shaped shape -> optical_flow_to_hsv shape flows sat = Ok (map (image_hsv sat) flows).
Proof.
  intros W. destruct (proj2 (hsv_outcome shape flows sat) W) as [r H]. unfold optical_flow_to_hsv in *. destruct (Nat.ltb _ _); [discriminate|]. destruct (negb _); [discriminate|]. reflexivity.
Qed.
Definition local_of (sat : R) (image : list flow) : R := if rltb sat 0 then reduce_max (map magnitude image) else sat.
Lemma at2_image sat flows b i : at2 (map (image_hsv sat) flows) b i = match nth_error flows b with Some image => option_map (flow_hsv (local_of sat image)) (nth_error image i) | None => None end.
Proof.
  unfold at2. rewrite nth_error_map. destruct (nth_error flows b) as [image|]; cbn [option_map]; [|reflexivity]. unfold image_hsv. apply nth_error_map.
Qed.
(** With a negative saturating magnitude: the hue is the direction, the saturation the length as a part of the largest one. *)
Theorem hsv_relative : forall shape (flows : list (list flow)) sat image f b i r, well_shaped shape -> sat < 0 -> optical_flow_to_hsv shape flows sat = Ok r ->
  nth_error flows b = Some image -> nth_error image i = Some f ->
  exists h s m n, at2 r b i = Some (h, s, 1) /\ is_direction f h /\ largest image m /\ length2 f n /\ in01 s /\ s * m = n /\ (m = 0 -> s = 0).
Proof.
  intros shape flows sat image f b i r W S H B I. rewrite (hsv_ok shape flows sat W) in H. injection H as <-. rewrite at2_image, B, I. cbn [option_map].
  unfold local_of. replace (rltb sat 0) with true by (symmetry; apply rltb_iff; exact S).
  destruct (hue_spec (reduce_max (map magnitude image)) f) as (h & s & E & D & ES). assert (N : image <> []) by (intros ->; destruct i; discriminate).
  destruct (largest_exists image N) as [m M]. rewrite <- (largest_max image m M) in E, ES. rewrite <- (largest_max image m M).
  exists h, s, m, (magnitude f). split; [rewrite E; reflexivity|]. split; [exact D|]. split; [exact M|]. split; [apply magnitude_spec|].
  assert (I' := nth_error_In _ _ I). assert (U := proj2 M f (magnitude f) I' (magnitude_spec f)). assert (F0 := proj1 (magnitude_spec f)).
  unfold divide_no_nan in ES. destruct (Req_EM_T m 0) as [Z|Z].
  - rewrite Rmin_left in ES by lra. subst s. unfold in01. split; [lra|]. split; [nra|reflexivity].
  - assert (P : 0 < m) by lra. assert (Q : magnitude f / m * m = magnitude f) by (field; exact Z). assert (Q0 : 0 <= magnitude f / m <= 1) by (split; nra).
    rewrite Rmin_left in ES by lra. subst s. unfold in01. split; [exact Q0|]. split; [exact Q|lra].
Qed.
(** With a positive one: the saturation is the length as a part of it, and one beyond it. *)
Theorem hsv_fixed : forall shape (flows : list (list flow)) sat image f b i r, well_shaped shape -> 0 < sat -> optical_flow_to_hsv shape flows sat = Ok r ->
  nth_error flows b = Some image -> nth_error image i = Some f ->
  exists h s n, at2 r b i = Some (h, s, 1) /\ is_direction f h /\ length2 f n /\ in01 s /\ (n <= sat -> s * sat = n) /\ (sat <= n -> s = 1).
Proof.
  intros shape flows sat image f b i r W S H B I. rewrite (hsv_ok shape flows sat W) in H. injection H as <-. rewrite at2_image, B, I. cbn [option_map].
  unfold local_of. replace (rltb sat 0) with false by (symmetry; apply rltb_false; lra). destruct (hue_spec sat f) as (h & s & E & D & ES).
  exists h, s, (magnitude f). split; [rewrite E; reflexivity|]. split; [exact D|]. split; [apply magnitude_spec|]. unfold divide_no_nan in ES. destruct (Req_EM_T sat 0) as [Z|Z]; [lra|].
  assert (F0 := proj1 (magnitude_spec f)). assert (Q : magnitude f / sat * sat = magnitude f) by (field; exact Z). set (q := magnitude f / sat) in *. assert (Q0 : 0 <= q) by nra.
  unfold in01. destruct (Rle_or_lt q 1) as [L|L].
  - rewrite Rmin_left in ES by exact L. subst s. split; [lra|]. split; [intros _; exact Q|intros G; nra].
  - rewrite Rmin_right in ES by lra. subst s. split; [lra|]. split; [intros G; nra|reflexivity].
Qed.
(** Zero as saturating magnitude: no color at all. *)
Theorem zero_refuted : exists shape (flows : list (list flow)) f n, well_shaped shape /\ flows = [[f]] /\ length2 f n /\ 0 < n
  /\ exists h, optical_flow_to_hsv shape flows 0 = Ok [[(h, 0, 1)]].
Proof.
  assert (W : well_shaped [1; 1; 2]%nat) by (split; [cbn; lia|exists [1; 1]%nat; reflexivity]).
  exists [1; 1; 2]%nat, [[(1, 0)]], (1, 0), 1. split; [exact W|]. split; [reflexivity|]. split; [split; [lra|cbn; ring]|]. split; [lra|].
  rewrite (hsv_ok _ _ _ W). cbn [map]. unfold image_hsv. replace (rltb 0 0) with false by (symmetry; apply rltb_false; lra). cbn [map].
  destruct (hue_spec 0 (1, 0)) as (h & s & E & _ & ES). rewrite E. unfold divide_no_nan in ES. destruct (Req_EM_T 0 0) as [_|Z]; [|lra]. rewrite Rmin_left in ES by lra. subst s. exists h. reflexivity.
Qed.
(** The image does not depend on the scale of the flow. *)
Lemma magnitude_zoom k f : 0 < k -> magnitude (zoom k f) = k * magnitude f.
Proof.
  intros K. apply (length2_unique (zoom k f)); [apply magnitude_spec|]. destruct (magnitude_spec f) as [A B]. split; [nra|]. unfold zoom. cbn [fst snd]. nra.
Qed.
Lemma max_zoom k image : 0 < k -> reduce_max (map magnitude (map (zoom k) image)) = k * reduce_max (map magnitude image).
Proof.
  intros K. induction image as [|f l IH]; [cbn; ring|]. unfold reduce_max in *. cbn [map fold_right]. rewrite IH, magnitude_zoom by exact K. rewrite RmaxRmult by lra. reflexivity.
Qed.
Theorem scale_free : forall shape (flows : list (list flow)) sat ks, sat < 0 -> Forall (fun k => 0 < k) ks -> List.length ks = List.length flows ->
  optical_flow_to_hsv shape (map (fun kf => map (zoom (fst kf)) (snd kf)) (combine ks flows)) sat = optical_flow_to_hsv shape flows sat.
Proof.
  intros shape flows sat ks S K L. unfold optical_flow_to_hsv. destruct (Nat.ltb _ _); [reflexivity|]. destruct (negb _); [reflexivity|]. f_equal.
  revert flows L. induction K as [|k ks K0 K IH]; intros [|image flows] L; try discriminate; [reflexivity|]. cbn [combine map fst snd]. f_equal; [|apply IH; injection L; auto].
  unfold image_hsv. replace (rltb sat 0) with true by (symmetry; apply rltb_iff; exact S). rewrite max_zoom, map_map by exact K0. apply map_ext. intros f.
  unfold flow_hsv. unfold zoom at 1 2. cbn [fst snd]. rewrite atan2_scale by exact K0. rewrite magnitude_zoom by exact K0. f_equal. f_equal. f_equal.
  unfold divide_no_nan. set (M := reduce_max (map magnitude image)). destruct (Req_EM_T (k * M) 0) as [Z|Z], (Req_EM_T M 0) as [Z'|Z']; try reflexivity.
  - exfalso. apply Rmult_integral in Z. destruct Z; lra.
  - exfalso. apply Z. rewrite Z'. ring.
  - field. split; lra.
Qed.
