(** Tensors as lists of rows: elementwise operations, reshaping, gathering. *)
From Coq Require Import Reals Lra List Arith Lia Bool.
From Verif Require Import Base ResultLib GeomModel GeomBase FrameModel FrameSpec LidModel LidSpec.
Import ListNotations.
Open Scope nat_scope.

Lemma mapM_id {A} (l : list (result A)) r : mapM (fun x => x) l = Ok r <-> l = map Ok r.
Proof.
  revert r. induction l as [|[x|e] l IH]; intros r; cbn [mapM bind].
  - split; [intros E; apply Ok_inj in E; now subst r | destruct r; [reflexivity | discriminate]].
  - destruct (mapM (fun x => x) l) as [s|e] eqn:E; cbn [bind].
    + pose proof (proj1 (IH s) eq_refl) as ->. split.
      * intros F. apply Ok_inj in F. now subst r.
      * destruct r as [|y r]; [discriminate|]. cbn. intros F. injection F as -> F. f_equal. f_equal.
        clear -F. revert r F. induction s as [|a s IH]; intros [|b r] F; try discriminate; [reflexivity|].
        cbn in F. injection F as -> F. f_equal. auto.
    + split; [discriminate|]. destruct r as [|y r]; [discriminate|]. cbn. intros F. injection F as -> F.
      apply IH in F. discriminate.
  - split; [discriminate|]. destruct r; discriminate.
Qed.

Lemma zip_ok {A B C} (f : A -> B -> C) a : forall b r, zip f a b = Ok r <->
  length a = length b /\ length r = length a /\ forall i x y, nth_error a i = Some x -> nth_error b i = Some y -> nth_error r i = Some (f x y).
Proof.
  induction a as [|x a IH]; intros [|y b] r; cbn [zip length].
  - split; [intros E; apply Ok_inj in E; subst r; repeat split; intros [|] ? ? H; discriminate|].
    intros (_ & L & _). destruct r; [reflexivity | discriminate].
  - split; [discriminate | intros (L & _); discriminate].
  - split; [discriminate | intros (L & _); discriminate].
  - split.
    + destruct (zip f a b) as [s|e] eqn:E; cbn [bind]; [|discriminate]. intros F. apply Ok_inj in F. subst r.
      apply IH in E. destruct E as (L & M & N). cbn [length]. repeat split; try lia.
      intros [|i] u v Hu Hv; cbn [nth_error] in *; [congruence | eauto].
    + intros (L & M & N). destruct r as [|z r]; [discriminate|].
      assert (E : zip f a b = Ok r).
      { apply IH. cbn [length] in M. repeat split; try lia. intros i u v Hu Hv. exact (N (S i) u v Hu Hv). }
      rewrite E. cbn [bind]. pose proof (N 0 x y eq_refl eq_refl) as Z. cbn in Z. congruence.
Qed.
Lemma zip_exists {A B C} (f : A -> B -> C) a : forall b, length a = length b -> exists r, zip f a b = Ok r.
Proof.
  induction a as [|x a IH]; intros [|y b] L; try discriminate; [now exists []|].
  destruct (IH b) as [r E]; [cbn in L; lia|]. exists (f x y :: r). cbn. now rewrite E.
Qed.
Lemma zip_error {A B C} (f : A -> B -> C) a : forall b, length a <> length b -> zip f a b = Err ValueError.
Proof.
  induction a as [|x a IH]; intros [|y b] L; try reflexivity; [now elim L|].
  cbn. rewrite IH; [reflexivity | cbn in L; lia].
Qed.

Lemma same_shape_nth {A B} (a : list (list A)) (b : list (list B)) : same_shape a b <->
  length a = length b /\ forall i x y, nth_error a i = Some x -> nth_error b i = Some y -> length x = length y.
Proof.
  split.
  - intros F. induction F as [|x y a b H F IH]; [split; [reflexivity | intros [|] ? ? E; discriminate]|].
    destruct IH as [L N]. split; [cbn; lia|]. intros [|i] u v Hu Hv; cbn in *; [congruence | eauto].
  - revert b. induction a as [|x a IH]; intros [|y b] [L N]; try discriminate; constructor.
    + exact (N 0 x y eq_refl eq_refl).
    + apply IH. split; [cbn in L; lia | intros i u v Hu Hv; exact (N (S i) u v Hu Hv)].
Qed.
Lemma same_shape_pixel {A B} (a : list (list A)) (b : list (list B)) : same_shape a b -> forall r c, pixel_at a r c = None <-> pixel_at b r c = None.
Proof.
  intros F. induction F as [|x y a b H F IH]; intros r c; unfold pixel_at in *.
  - destruct r; cbn; tauto.
  - destruct r as [|r]; cbn [nth_error]; [rewrite !nth_error_None, H; tauto | apply IH].
Qed.
Lemma same_shape_sym {A B} (a : list (list A)) (b : list (list B)) : same_shape a b -> same_shape b a.
Proof. intros F. induction F; constructor; auto. Qed.
Lemma same_shape_trans {A B C} (a : list (list A)) (b : list (list B)) (c : list (list C)) : same_shape a b -> same_shape b c -> same_shape a c.
Proof. intros F. revert c. induction F as [|x y a b H F IH]; intros c G; inversion G as [|y' z b' c' H' G']; subst; constructor; [congruence | now apply IH]. Qed.
Lemma same_shape_map {A B} (f : A -> B) a : same_shape a (map (map f) a).
Proof. induction a; constructor; [now rewrite map_length | exact IHa]. Qed.
Lemma same_shape_refl {A} (a : list (list A)) : same_shape a a.
Proof. induction a; constructor; auto. Qed.
Lemma pixel_map {A B} (f : A -> B) (a : list (list A)) r c : pixel_at (map (map f) a) r c = option_map f (pixel_at a r c).
Proof.
  unfold pixel_at. rewrite nth_error_map. destruct (nth_error a r) as [row|]; [|reflexivity]. cbn. now rewrite nth_error_map.
Qed.
(** Two images of the same shape with the same pixels are equal. *)
Lemma pixel_ext {A} (a b : list (list A)) : same_shape a b -> (forall r c, pixel_at a r c = pixel_at b r c) -> a = b.
Proof.
  intros F. induction F as [|x y a b H F IH]; intros E; [reflexivity|]. f_equal.
  - assert (G : forall c, nth_error x c = nth_error y c) by (intros c; exact (E 0 c)). clear -G.
    revert y G. induction x as [|u x IH]; intros [|v y] G; [reflexivity | specialize (G 0); discriminate | specialize (G 0); discriminate|].
    pose proof (G 0) as G0. cbn in G0. injection G0 as ->. f_equal. apply IH. intros c. exact (G (S c)).
  - apply IH. intros r c. exact (E (S r) c).
Qed.

Definition both {A B C} (f : A -> B -> C) (x : option A) (y : option B) : option C :=
  match x, y with Some x, Some y => Some (f x y) | _, _ => None end.
Lemma zip_image_spec {A B C} (f : A -> B -> C) a b t : zip_image f a b = Ok t ->
  same_shape a b /\ same_shape a t /\ forall r c, pixel_at t r c = both f (pixel_at a r c) (pixel_at b r c).
Proof.
  unfold zip_image. destruct (zip (zip f) a b) as [rows|] eqn:E; [|discriminate]. cbn [bind]. intros M. apply mapM_id in M. subst rows.
  apply zip_ok in E. destruct E as (L & M & N). rewrite map_length in M.
  assert (K : forall i x y, nth_error a i = Some x -> nth_error b i = Some y -> exists z, nth_error t i = Some z /\ zip f x y = Ok z).
  { intros i x y Hx Hy. specialize (N i x y Hx Hy). rewrite nth_error_map in N. destruct (nth_error t i) as [z|]; [|discriminate].
    cbn in N. exists z. split; congruence. }
  split; [|split].
  - apply same_shape_nth. split; [exact L|]. intros i x y Hx Hy. destruct (K i x y Hx Hy) as (z & _ & Z). apply zip_ok in Z. tauto.
  - apply same_shape_nth. split; [lia|]. intros i x z Hx Hz. destruct (nth_error b i) as [y|] eqn:Hy.
    + destruct (K i x y Hx Hy) as (z' & Hz' & Z). apply zip_ok in Z. replace z with z' by congruence. symmetry. tauto.
    + apply nth_error_None in Hy. assert (i < length a) by (apply nth_error_Some; congruence). lia.
  - intros r c. unfold pixel_at. destruct (nth_error a r) as [x|] eqn:Hx.
    + destruct (nth_error b r) as [y|] eqn:Hy.
      * destruct (K r x y Hx Hy) as (z & Hz & Z). rewrite Hz. apply zip_ok in Z. destruct Z as (L1 & L2 & Z).
        destruct (nth_error x c) as [u|] eqn:Hu.
        -- destruct (nth_error y c) as [v|] eqn:Hv; [cbn; eauto|]. apply nth_error_None in Hv.
           assert (c < length x) by (apply nth_error_Some; congruence). lia.
        -- cbn. apply nth_error_None in Hu. apply nth_error_None. lia.
      * apply nth_error_None in Hy. assert (r < length a) by (apply nth_error_Some; congruence). lia.
    + cbn. apply nth_error_None in Hx. replace (nth_error t r) with (@None (list C)); [reflexivity|]. symmetry. apply nth_error_None. lia.
Qed.
Lemma zip_image_exists {A B C} (f : A -> B -> C) a b : same_shape a b -> exists t, zip_image f a b = Ok t.
Proof.
  intros F. unfold zip_image. induction F as [|x y a b H F [t IH]]; [now exists []|]. cbn [zip].
  destruct (zip (zip f) a b) as [rows|] eqn:E; [|discriminate]. cbn [bind] in *. destruct (zip_exists f x y H) as [z Z].
  exists (z :: t). cbn [mapM]. rewrite Z. cbn [bind]. now rewrite IH.
Qed.
Lemma zip_image_error {A B C} (f : A -> B -> C) a b : ~ same_shape a b -> zip_image f a b = Err ValueError.
Proof.
  intros N. destruct (zip_image f a b) as [t|e] eqn:E; [apply zip_image_spec in E; tauto|].
  unfold zip_image in E. destruct (Nat.eq_dec (length a) (length b)) as [L|L].
  - destruct (zip_exists (zip f) a b L) as [rows Z]. rewrite Z in E. cbn [bind] in E. apply zip_ok in Z. destruct Z as (_ & M & Z).
    assert (K : forall x, In x rows -> (exists y, x = Ok y) \/ x = Err ValueError).
    { intros x Hx. apply In_nth_error in Hx. destruct Hx as [i Hi].
      assert (Hl : i < length rows) by (apply nth_error_Some; congruence).
      destruct (nth_error a i) as [u|] eqn:Hu; [|apply nth_error_None in Hu; lia].
      destruct (nth_error b i) as [v|] eqn:Hv; [|apply nth_error_None in Hv; lia].
      rewrite (Z i u v Hu Hv) in Hi. injection Hi as <-. destruct (Nat.eq_dec (length u) (length v)) as [Q|Q].
      - left. destruct (zip_exists f u v Q) as [r R]. eauto.
      - right. now apply zip_error. }
    clear -E K. revert E K. induction rows as [|x rows IH]; [discriminate|]. cbn [mapM]. intros E K.
    destruct (K x (or_introl eq_refl)) as [[y ->] | ->]; cbn [bind] in E; [|congruence].
    destruct (mapM (fun r => r) rows) as [s|e'] eqn:F; cbn [bind] in E; [discriminate|]. apply IH; [congruence | intros z Hz; apply K; now right].
  - now rewrite zip_error in E by exact L.
Qed.

(** ** Numbering *)
Lemma number_nth {A} (l : list A) i : nth_error (number l) i = option_map (pair i) (nth_error l i).
Proof.
  unfold number. assert (G : forall s, nth_error (combine (seq s (length l)) l) i = option_map (pair (s + i)) (nth_error l i)).
  { revert i. induction l as [|x l IH]; intros i s; [destruct i; reflexivity|]. destruct i as [|i]; cbn.
    - now rewrite Nat.add_0_r.
    - rewrite IH. now replace (S s + i) with (s + S i) by lia. }
  apply (G 0).
Qed.
Lemma number_length {A} (l : list A) : length (number l) = length l.
Proof. unfold number. rewrite combine_length, seq_length. lia. Qed.

(** ** Reshaping *)
Lemma split_length {A} n k : forall l : list A, length (split n k l) = n.
Proof. induction n; intros l; cbn; auto. Qed.
Lemma split_nth {A} n k : forall (l : list A) i, i < n -> nth_error (split n k l) i = Some (firstn k (skipn (i * k) l)).
Proof.
  induction n as [|n IH]; intros l i H; [lia|]. destruct i as [|i]; [reflexivity|]. cbn [split nth_error].
  rewrite IH by lia. f_equal. f_equal. clear. revert l. cbn [Nat.mul]. generalize (i * k) as m. intros m. induction k as [|k IHk]; intros l.
  - reflexivity.
  - destruct l as [|x l]; [cbn; now rewrite skipn_nil | cbn; apply IHk].
Qed.
Lemma nth_error_skipn' {A} n (l : list A) i : nth_error (skipn n l) i = nth_error l (n + i).
Proof. revert l. induction n; intros [|x l]; cbn; auto. now destruct i. Qed.
Lemma nth_error_firstn' {A} n (l : list A) i : i < n -> nth_error (firstn n l) i = nth_error l i.
Proof. revert l i. induction n; intros l i H; [lia|]. destruct l, i; cbn; auto. apply IHn. lia. Qed.

Lemma list_ext {A} (u v : list A) : (forall k, nth_error u k = nth_error v k) -> u = v.
Proof.
  revert v. induction u as [|x u IH]; intros [|y v] G; [reflexivity | specialize (G 0); discriminate | specialize (G 0); discriminate|].
  pose proof (G 0) as G0. injection G0 as ->. f_equal. apply IH. intros k. exact (G (S k)).
Qed.
Lemma reshape_pixels {A} (m : matrix A) h w d : well_formed m h w d ->
  forall r c v, pixel_at (map (split w d) (split h (w * d) (data m))) r c = Some v <-> channels m r c v.
Proof.
  intros [D L].
  assert (P : forall r c, r < h -> c < w -> exists u, pixel_at (map (split w d) (split h (w * d) (data m))) r c = Some u /\
     length u = d /\ forall k, k < d -> nth_error u k = nth_error (data m) ((r * w + c) * d + k)).
  { intros r c Hr Hc. unfold pixel_at. rewrite nth_error_map, split_nth by exact Hr. cbn [option_map]. rewrite split_nth by exact Hc.
    assert (B1 : r * w + w <= h * w) by nia.
    assert (B2 : c * d + d <= w * d) by nia.
    assert (B3 : r * (w * d) + w * d <= h * w * d) by (pose proof (Nat.mul_le_mono_r _ _ d B1); lia).
    eexists. split; [reflexivity|]. split.
    - rewrite firstn_length, skipn_length, firstn_length, skipn_length, L. lia.
    - intros k Hk. rewrite nth_error_firstn' by exact Hk. rewrite nth_error_skipn'. rewrite nth_error_firstn' by lia.
      rewrite nth_error_skipn'. f_equal. lia. }
  intros r c v. split.
  - intros H. assert (Hr : r < h).
    { unfold pixel_at in H. destruct (nth_error (map (split w d) (split h (w * d) (data m))) r) eqn:Q; [|discriminate].
      assert (Z : r < length (map (split w d) (split h (w * d) (data m)))) by (apply nth_error_Some; congruence).
      now rewrite map_length, split_length in Z. }
    assert (Hc : c < w).
    { unfold pixel_at in H. rewrite nth_error_map, split_nth in H by exact Hr. cbn in H.
      assert (Z : c < length (split w d (firstn (w * d) (skipn (r * (w * d)) (data m))))) by (apply nth_error_Some; congruence).
      now rewrite split_length in Z. }
    destruct (P r c Hr Hc) as (u & E & Lu & Nu). rewrite E in H. injection H as <-.
    exists h, w, d. split; [now split | auto].
  - intros (h' & w' & d' & [D' L'] & Hr & Hc & Lv & Nv). rewrite D in D'. injection D' as <- <- <-.
    destruct (P r c Hr Hc) as (u & E & Lu & Nu). rewrite E. f_equal. apply list_ext.
    intros k. destruct (lt_dec k d) as [K|K]; [rewrite Nu, Nv by exact K; reflexivity|].
    transitivity (@None A); [|symmetry]; apply nth_error_None; lia.
Qed.
Lemma reshape_shape {A} (m : matrix A) h w d : length (map (split w d) (split h (w * d) (data m))) = h /\ rectangle w (map (split w d) (split h (w * d) (data m))).
Proof.
  split; [now rewrite map_length, split_length|]. apply Forall_forall. intros row H. apply in_map_iff in H. destruct H as (x & <- & _). apply split_length.
Qed.
Lemma rectangle_same {A B} w (a : list (list A)) (b : list (list B)) : length a = length b -> rectangle w a -> rectangle w b -> same_shape a b.
Proof.
  intros L Ra Rb. apply same_shape_nth. split; [exact L|]. intros i x y Hx Hy. apply nth_error_In in Hx, Hy.
  rewrite (proj1 (Forall_forall _ _) Ra x Hx). symmetry. exact (proj1 (Forall_forall _ _) Rb y Hy).
Qed.
Theorem tensor_ok {A} (m : matrix A) t : tensor m = Ok t <->
  exists h w d, well_formed m h w d /\ length t = h /\ rectangle w t /\ forall r c v, pixel_at t r c = Some v <-> channels m r c v.
Proof.
  split.
  - unfold tensor. destruct (dims m) as [|h [|w [|d [|]]]] eqn:D; try discriminate.
    destruct (Nat.eqb_spec (length (data m)) (h * w * d)) as [L|L]; [|discriminate]. intros E. apply Ok_inj in E. subst t.
    exists h, w, d. split; [now split|]. destruct (reshape_shape m h w d) as [S1 S2]. split; [exact S1|]. split; [exact S2|].
    apply reshape_pixels. now split.
  - intros (h & w & d & W & Lt & Rt & P). unfold tensor. destruct W as [D L]. rewrite D, L, Nat.eqb_refl. f_equal.
    destruct (reshape_shape m h w d) as [S1 S2]. apply pixel_ext.
    + apply (rectangle_same w); [congruence | exact S2 | exact Rt].
    + intros r c. pose proof (reshape_pixels m h w d (conj D L) r c) as Q. destruct (pixel_at t r c) as [v|] eqn:F.
      * apply Q. now apply P.
      * destruct (pixel_at (map (split w d) (split h (w * d) (data m))) r c) as [v|]; [|reflexivity].
        assert (G : pixel_at t r c = Some v) by (apply P, Q; reflexivity). congruence.
Qed.
Lemma tensor_exists {A} (m : matrix A) h w d : well_formed m h w d -> exists t, tensor m = Ok t.
Proof. intros [D L]. unfold tensor. rewrite D, L, Nat.eqb_refl. eauto. Qed.

(** ** Pixels one by one *)
Lemma mapM_image {A B} (f : A -> result B) (t : list (list A)) s : mapM (mapM f) t = Ok s ->
  same_shape t s /\ forall r c v, pixel_at t r c = Some v -> exists u, f v = Ok u /\ pixel_at s r c = Some u.
Proof.
  revert s. induction t as [|row t IH]; cbn [mapM]; intros s E.
  - apply Ok_inj in E. subst s. split; [constructor|]. intros [|] c v H; discriminate.
  - destruct (mapM f row) as [u|] eqn:R; [|discriminate]. cbn [bind] in E. destruct (mapM (mapM f) t) as [s'|]; [|discriminate].
    cbn [bind] in E. apply Ok_inj in E. subst s. destruct (IH s' eq_refl) as [S P]. split.
    + constructor; [symmetry; exact (mapM_length _ _ _ R) | exact S].
    + intros [|r] c v H; [|exact (P r c v H)]. unfold pixel_at in *. cbn [nth_error] in *. clear -R H.
      revert u c R H. induction row as [|x row IH]; cbn [mapM]; intros u c R H; [destruct c; discriminate|].
      destruct (f x) as [y|] eqn:F; [|discriminate]. cbn [bind] in R. destruct (mapM f row) as [u'|]; [|discriminate]. cbn [bind] in R.
      apply Ok_inj in R. subst u. destruct c as [|c]; cbn in *; [injection H as <-; eauto | eauto].
Qed.
Lemma mapM_exists {A B} (f : A -> result B) l : (forall x, In x l -> exists y, f x = Ok y) -> exists r, mapM f l = Ok r.
Proof.
  induction l as [|x l IH]; intros H; [now exists []|]. destruct (H x (or_introl eq_refl)) as [y E].
  destruct IH as [r R]; [intros z Hz; apply H; now right|]. exists (y :: r). cbn. now rewrite E, R.
Qed.
Lemma mapM_image_exists {A B} (f : A -> result B) (t : list (list A)) : (forall r c v, pixel_at t r c = Some v -> exists u, f v = Ok u) -> exists s, mapM (mapM f) t = Ok s.
Proof.
  intros H. apply mapM_exists. intros row Hr. apply mapM_exists. intros x Hx. apply In_nth_error in Hr, Hx. destruct Hr as [r Hr], Hx as [c Hc].
  apply (H r c). unfold pixel_at. now rewrite Hr.
Qed.

(** ** Gathering *)
Theorem gather_ok {A} (t : list (list A)) index out : gather t index = Ok out <->
  Forall2 (fun rc v => pixel_at t (fst rc) (snd rc) = Some v) index out.
Proof.
  unfold gather. split.
  - revert out. induction index as [|[r c] index IH]; cbn [mapM]; intros out E; [apply Ok_inj in E; subst out; constructor|].
    unfold pixel_at. cbn [fst snd] in *. destruct (nth_error t r) as [row|] eqn:R; [|discriminate]. destruct (nth_error row c) as [x|] eqn:C; [|discriminate].
    cbn [bind] in E. destruct (mapM _ index) as [s|]; [|discriminate]. cbn [bind] in E. apply Ok_inj in E. subst out.
    constructor; [cbn [fst snd]; now rewrite R | exact (IH s eq_refl)].
  - intros F. induction F as [|[r c] v index out H F IH]; [reflexivity|]. cbn [mapM]. unfold pixel_at in H. cbn [fst snd] in *.
    destruct (nth_error t r) as [row|]; [|discriminate]. rewrite H. cbn [bind]. now rewrite IH.
Qed.
Lemma gather_exists {A} (t : list (list A)) index : (forall r c, In (r, c) index -> pixel_at t r c <> None) -> exists out, gather t index = Ok out.
Proof.
  intros H. apply mapM_exists. intros [r c] Hi. specialize (H r c Hi). unfold pixel_at in H. cbn [fst snd].
  destruct (nth_error t r) as [row|]; [|congruence]. destruct (nth_error row c); [eauto | congruence].
Qed.

Lemma in_number {A} (l : list A) i x : In (i, x) (number l) <-> nth_error l i = Some x.
Proof.
  split; intros H.
  - apply In_nth_error in H. destruct H as [j H]. rewrite number_nth in H. destruct (nth_error l j) eqn:E; [|discriminate]. cbn in H. congruence.
  - apply (nth_error_In _ i). now rewrite number_nth, H.
Qed.
Lemma where_in ranges r c : In (r, c) (where_positive ranges) <-> hit ranges r c.
Proof.
  unfold where_positive, hit, pixel_at. rewrite in_concat. split.
  - intros (l & Hl & H). apply in_map_iff in Hl. destruct Hl as ([r' row] & <- & Hr). apply in_map_iff in H. cbn [fst snd] in H.
    destruct H as ([c' x] & E & H). cbn [fst snd] in E. injection E as <- <-. apply filter_In in H. destruct H as [H P].
    apply in_number in Hr, H. exists x. rewrite Hr. split; [exact H|]. now apply rltb_iff.
  - intros (x & H & P). destruct (nth_error ranges r) as [row|] eqn:R; [|discriminate].
    exists (map (fun cx => (r, fst cx)) (filter (fun cx => rltb 0 (snd cx)) (number row))). split.
    + apply in_map_iff. exists (r, row). split; [reflexivity|]. now apply in_number.
    + apply in_map_iff. exists (c, x). split; [reflexivity|]. apply filter_In. split; [now apply in_number|]. now apply rltb_iff.
Qed.
(** Strictly increasing lists. *)
Fixpoint ascending (l : list (nat * nat)) : Prop :=
  match l with [] => True | a :: l' => (forall b, In b l' -> earlier a b) /\ ascending l' end.
Lemma ascending_app a b : ascending a -> ascending b -> (forall x y, In x a -> In y b -> earlier x y) -> ascending (a ++ b).
Proof.
  induction a as [|x a IH]; cbn; [auto|]. intros [H A] B C. split.
  - intros y Hy. apply in_app_or in Hy. destruct Hy as [Hy|Hy]; [auto | apply C; auto].
  - apply IH; auto.
Qed.
Lemma ascending_nth l : ascending l -> forall i j a b, i < j -> nth_error l i = Some a -> nth_error l j = Some b -> earlier a b.
Proof.
  induction l as [|x l IH]; intros A i j a b H Ha Hb; [destruct i; discriminate|]. destruct A as [A1 A2]. destruct j as [|j]; [lia|].
  destruct i as [|i]; cbn in Ha, Hb.
  - injection Ha as <-. apply A1. exact (nth_error_In _ _ Hb).
  - apply (IH A2 i j); auto. lia.
Qed.
Lemma row_ascending r (row : list R) s : ascending (map (fun cx => (r, fst cx)) (filter (fun cx => rltb 0 (snd cx)) (combine (seq s (length row)) row))).
Proof.
  revert s. induction row as [|x row IH]; intros s; [exact I|]. cbn [length seq combine filter fst snd].
  assert (B : forall b, In b (map (fun cx => (r, fst cx)) (filter (fun cx => rltb 0 (snd cx)) (combine (seq (S s) (length row)) row))) -> fst b = r /\ s < snd b).
  { intros b Hb. apply in_map_iff in Hb. destruct Hb as ([c y] & <- & Hc). apply filter_In in Hc. destruct Hc as [Hc _].
    apply in_combine_l, in_seq in Hc. cbn. lia. }
  destruct (rltb 0 x); [|apply IH]. cbn [map ascending fst]. split; [|apply IH].
  intros b Hb. destruct (B b Hb) as [E L]. right. cbn [fst snd]. split; [now symmetry | exact L].
Qed.
Definition where_from (s : nat) (ranges : list (list R)) : list (nat * nat) :=
  concat (map (fun rr => map (fun cx => (fst rr, fst cx)) (filter (fun cx => rltb 0 (snd cx)) (number (snd rr)))) (combine (seq s (length ranges)) ranges)).
Theorem where_hits ranges : all_hits ranges (where_positive ranges).
Proof.
  split; [intros r c; apply where_in|]. apply ascending_nth. change (ascending (where_from 0 ranges)).
  generalize 0 as s. unfold where_from. induction ranges as [|row ranges IH]; intros s; [exact I|]. cbn [length seq combine map concat fst snd].
  apply ascending_app; [apply row_ascending | apply IH|].
  intros x y Hx Hy. apply in_map_iff in Hx. destruct Hx as ([c u] & <- & _). apply in_concat in Hy. destruct Hy as (l & Hl & Hy).
  apply in_map_iff in Hl. destruct Hl as ([r' row'] & <- & Hr). apply in_map_iff in Hy. destruct Hy as ([c' u'] & <- & _).
  apply in_combine_l, in_seq in Hr. left. cbn. lia.
Qed.
(** The hits in order are one list only. *)
Lemma earlier_irrefl a : ~ earlier a a.
Proof. unfold earlier. lia. Qed.
Lemma ascending_of_nth l : (forall i j a b, i < j -> nth_error l i = Some a -> nth_error l j = Some b -> earlier a b) -> ascending l.
Proof.
  induction l as [|x l IH]; intros H; [exact I|]. split.
  - intros b Hb. apply In_nth_error in Hb. destruct Hb as [j Hj]. apply (H 0 (S j) x b); [lia | reflexivity | exact Hj].
  - apply IH. intros i j a b L Ha Hb. apply (H (S i) (S j)); auto. lia.
Qed.
Lemma ascending_unique a : forall b, ascending a -> ascending b -> (forall x, In x a <-> In x b) -> a = b.
Proof.
  induction a as [|x a IH]; intros [|y b] A B E; [reflexivity | destruct (proj2 (E y) (or_introl eq_refl)) | destruct (proj1 (E x) (or_introl eq_refl))|].
  destruct A as [A1 A2], B as [B1 B2]. assert (x = y).
  { destruct (proj1 (E x) (or_introl eq_refl)) as [?|Hx]; [congruence|]. destruct (proj2 (E y) (or_introl eq_refl)) as [?|Hy]; [congruence|].
    specialize (A1 y Hy). specialize (B1 x Hx). unfold earlier in *. lia. }
  subst y. f_equal. apply IH; auto. intros z. specialize (E z). cbn in E. split; intros H.
  - destruct (proj1 E (or_intror H)) as [<-|?]; [|assumption]. elim (earlier_irrefl x (A1 x H)).
  - destruct (proj2 E (or_intror H)) as [<-|?]; [|assumption]. elim (earlier_irrefl x (B1 x H)).
Qed.
Theorem all_hits_unique ranges l l' : all_hits ranges l -> all_hits ranges l' -> l = l'.
Proof.
  intros [H O] [H' O']. apply ascending_unique; try (apply ascending_of_nth; assumption). intros [r c]. rewrite H, H'. tauto.
Qed.
