(** Proofs about the point cloud tutorials. *)
From Coq Require Import QArith Lia.
From Verif Require Import Base ResultLib MltModel MltSpec.
Open Scope list_scope.

Lemma sixteen {A} (l : list A) : List.length l = 16%nat -> exists a0 a1 a2 a3 b0 b1 b2 b3 c0 c1 c2 c3 d0 d1 d2 d3, l = [a0; a1; a2; a3; b0; b1; b2; b3; c0; c1; c2; c3; d0; d1; d2; d3].
Proof. intros H. do 16 (destruct l as [|? l]; [discriminate H|]). destruct l; [|discriminate H]. do 16 eexists. reflexivity. Qed.
Lemma point_exact pose offset row p : List.length pose = 16%nat -> plot_point pose offset row = Ok p -> drawn pose offset row p.
Proof.
  intros L. destruct (sixteen pose L) as (a0 & a1 & a2 & a3 & b0 & b1 & b2 & b3 & c0 & c1 & c2 & c3 & d0 & d1 & d2 & d3 & ->). destruct offset as [[ox oy] oz]. unfold plot_point.
  destruct row as [|r [|i [|e [|x [|y [|z [|? ?]]]]]]]; cbn [skipn]; try discriminate. intros [= <-]. unfold drawn.
  exists r, i, e, x, y, z, a0, a1, a2, a3, b0, b1, b2, b3, c0, c1, c2, c3, d0, d1, d2, d3, ox, oy, oz. repeat split. do 3 eexists. split; [reflexivity|].
  unfold transform_row. cbn [Nat.mul Nat.add nth]. repeat split; ring.
Qed.
Theorem maps_exact frames r : plot_point_clouds_with_maps frames = Ok r ->
  Forall2 (fun f trace => exists first others, f_points f = first :: others /\ Forall2 (drawn (f_pose f) (f_offset f)) first trace) frames r.
Proof.
  unfold plot_point_clouds_with_maps. intros H. apply mapM_inv in H. induction H as [|f t frames r E H IH]; constructor; [|exact IH]. unfold plot_frame in E.
  destruct (f_points f) as [|p others]; [discriminate|]. destruct (Nat.eqb_spec (List.length (f_pose f)) 16) as [L|]; [|discriminate].
  exists p, others. split; [reflexivity|]. apply mapM_inv in E. induction E as [|a b p t E F IHF]; constructor; [now apply point_exact|exact IHF].
Qed.
Theorem maps_accepts frames : (forall f, In f frames -> List.length (f_pose f) = 16%nat /\ exists first others, f_points f = first :: others /\ forall row, In row first -> List.length row = 6%nat) ->
  exists r, plot_point_clouds_with_maps frames = Ok r.
Proof.
  unfold plot_point_clouds_with_maps. induction frames as [|f frames IH]; intros H; cbn [mapM]; [eauto|].
  destruct IH as (r & R); [intros g G; apply H; now right|]. rewrite R. destruct (H f (or_introl eq_refl)) as (L & p & o & E & S). unfold plot_frame. rewrite E, L. cbn [Nat.eqb].
  assert (G : exists t, mapM (plot_point (f_pose f) (f_offset f)) p = Ok t); [|destruct G as (t & ->); cbn [bind]; eauto].
  clear - S. induction p as [|row p IH]; cbn [mapM]; [eauto|]. destruct IH as (t & ->); [intros q Q; apply S; now right|]. specialize (S row (or_introl eq_refl)). unfold plot_point. destruct (f_offset f) as [[ox oy] oz].
  destruct row as [|? [|? [|? [|? [|? [|? [|? ?]]]]]]]; cbn in S; try discriminate S. cbn. eauto.
Qed.
Theorem colour_refuted : ~ (forall f t rest row p, plot_point_clouds_with_maps [f] = Ok [p :: t] -> f_points f = [row :: rest] -> (snd p == nth 1 row 0)%Q).
Proof.
  intros H. specialize (H (MapFrame (repeat 0%Q 16) (0, 0, 0)%Q [[[7; 2; 0; 0; 0; 0]%Q]]) [] [] [7; 2; 0; 0; 0; 0]%Q _ eq_refl eq_refl). discriminate H.
Qed.
Lemma load_exact {A} (l : list A) : load_frames l [] 0 = firstn 2 l.
Proof. destruct l as [|a [|b l]]; reflexivity. Qed.

Lemma calib_exact {C} (l : list (Z * C)) name : calibration_of name l (get_laser_calib l name).
Proof. induction l as [|[n c] l IH]; cbn [get_laser_calib]; [constructor|]. destruct (Z.eqb_spec n name) as [->|N]; [constructor|now constructor]. Qed.
Lemma lasers_exact {P D C X F} top side (f : laser_frame P D C) ls : forall (xyz : list (list X)) (fs : list (list F)) r, lasers_loop top side (l_pose f) (l_calibrations f) ls xyz fs = Ok r ->
  exists x y, all_lasers top side f ls x y /\ concat (fst r) = concat xyz ++ x /\ concat (snd r) = concat fs ++ y /\ (List.length (fst r) = List.length xyz + 2 * List.length ls)%nat.
Proof.
  induction ls as [|[name d] ls IH]; intros xyz fs r; cbn [lasers_loop].
  - intros [= <-]. exists [], []. cbn [fst snd]. rewrite !app_nil_r. repeat split; [constructor|cbn; lia].
  - destruct (if (name =? TOP)%Z then top d (l_pose f) (get_laser_calib (l_calibrations f) name) else side d (get_laser_calib (l_calibrations f) name)) as [[[[x1 f1] x2] f2]|] eqn:E; cbn [bind]; [|discriminate].
    intros H. destruct (IH _ _ _ H) as (x & y & A & X1 & Y1 & L). exists ((x1 ++ x2) ++ x), ((f1 ++ f2) ++ y). split; [|split; [|split]].
    + constructor; [|exact A]. exists (get_laser_calib (l_calibrations f) name), x1, f1, x2, f2. split; [apply calib_exact|]. split; [reflexivity|]. split; [reflexivity|]. cbn [fst snd].
      unfold TOP in E. destruct (Z.eqb_spec name 1); [left|right]; auto.
    + rewrite X1, !concat_app. cbn [concat]. rewrite !app_nil_r, <- !app_assoc. reflexivity.
    + rewrite Y1, !concat_app. cbn [concat]. rewrite !app_nil_r, <- !app_assoc. reflexivity.
    + rewrite L, !app_length. cbn [List.length]. lia.
Qed.
Lemma frames_exact {P D C X F} (top : D -> P -> option C -> result (list X * list F * list X * list F)) side (all : list (laser_frame P D C)) frames : forall before r, all = before ++ frames ->
  frames_loop top side all (List.length before) frames = Ok r -> Forall2 (fun f xy => l_lasers f <> [] /\ all_lasers top side f (l_lasers f) (fst xy) (snd xy)) frames r.
Proof.
  induction frames as [|f frames IH]; intros before r A; cbn [frames_loop].
  - intros [= <-]. constructor.
  - assert (N : nth_error all (List.length before) = Some f) by (rewrite A, nth_error_app2, Nat.sub_diag by lia; reflexivity). rewrite N. cbn [bind].
    destruct (lasers_loop top side (l_pose f) (l_calibrations f) (l_lasers f) [] []) as [[a b]|] eqn:E; cbn [bind fst snd]; [|discriminate].
    destruct (lasers_exact _ _ _ _ _ _ _ E) as (x & y & L & X1 & Y1 & LN). cbn [fst snd concat app List.length] in X1, Y1, LN.
    unfold concatenate. destruct a as [|a0 a]; cbn [bind]; [discriminate|]. destruct b as [|b0 b]; cbn [bind]; [discriminate|].
    destruct (frames_loop top side all (List.length before + 1) frames) as [rest|] eqn:R; cbn [bind]; [|discriminate]. intros [= <-]. constructor.
    + cbn [fst snd]. change (a0 ++ concat a) with (concat (a0 :: a)). change (b0 ++ concat b) with (concat (b0 :: b)). rewrite X1, Y1. split; [|exact L].
      intros Z. rewrite Z in LN. discriminate LN.
    + apply (IH (before ++ [f])); [now rewrite <- app_assoc|]. rewrite app_length. exact R.
Qed.
Lemma extract_exact {P D C X F} (top : D -> P -> option C -> result (list X * list F * list X * list F)) side (all : list (laser_frame P D C)) r :
  extract_all top side all = Ok r -> Forall2 (fun f xy => l_lasers f <> [] /\ all_lasers top side f (l_lasers f) (fst xy) (snd xy)) all r.
Proof. intros H. exact (frames_exact top side all all [] r eq_refl H). Qed.
Lemma extract_aligned {P D C X F} (top : D -> P -> option C -> result (list X * list F * list X * list F)) side (all : list (laser_frame P D C)) r :
  (forall d p c x1 f1 x2 f2, top d p c = Ok (x1, f1, x2, f2) -> List.length x1 = List.length f1 /\ List.length x2 = List.length f2) ->
  (forall d c x1 f1 x2 f2, side d c = Ok (x1, f1, x2, f2) -> List.length x1 = List.length f1 /\ List.length x2 = List.length f2) ->
  extract_all top side all = Ok r -> Forall (fun xy => List.length (fst xy) = List.length (snd xy)) r.
Proof.
  intros T S H. apply extract_exact in H. induction H as [|f xy all r [_ H] _ IH]; constructor; [|exact IH].
  induction H as [|laser l x y xs ys (c & x1 & f1 & x2 & f2 & _ & -> & -> & E) _ IHl]; [reflexivity|]. rewrite !app_length, IHl.
  destruct E as [[_ E]|[_ E]]; [apply T in E|apply S in E]; lia.
Qed.

Lemma min_fold l : forall n, (forall m, In m (n :: l) -> (fold_left Z.min l n <= m)%Z) /\ In (fold_left Z.min l n) (n :: l).
Proof.
  induction l as [|a l IH]; intros n; cbn [fold_left]; [split; [intros m [<-|[]]; lia|now left]|]. destruct (IH (Z.min n a)) as [H I]. split.
  - intros m [<-|[<-|M]]; [| |apply H; now right]; specialize (H (Z.min n a) (or_introl eq_refl)); lia.
  - destruct I as [I|I]; [|right; now right]. rewrite <- I. destruct (Z.min_spec n a) as [[_ ->]|[_ ->]]; [now left|right; now left].
Qed.
Lemma seen_general {P} (norm : P -> Q) name : forall cps ps, List.length cps = List.length ps -> Forall (fun cp => (3 <= List.length cp)%nat) cps ->
  let mask := map (fun cp => (nth 0 cp 0 =? name)%Z) cps in
  seen_by norm name cps ps (map (fun cr => map inject_Z (firstn 2 (skipn 1 (fst cr))) ++ [snd cr]) (combine (gather mask cps) (gather mask (map norm ps)))).
Proof.
  cbv zeta. induction cps as [|cp cps IH]; intros [|p ps] L F; try discriminate; [constructor|]. injection L as L. inversion F as [|? ? H F']; subst.
  destruct cp as [|c [|x [|y more]]]; cbn [List.length] in H; try lia. cbn [map nth gather]. destruct (Z.eqb_spec c name) as [->|N].
  - cbn [combine map fst snd skipn firstn app]. apply seen_yes, IH; assumption.
  - apply seen_no; [exact N|]. apply IH; assumption.
Qed.
Lemma projected_exact {P} (norm : P -> Q) names cps (ps : list P) r : Forall (fun cp => (3 <= List.length cp)%nat) cps -> projected_points norm names cps ps = Ok r ->
  exists camera, In camera names /\ (forall n, In n names -> (camera <= n)%Z) /\ seen_by norm camera cps ps r.
Proof.
  intros F. unfold projected_points, first_name. destruct names as [|n names]; cbn [bind]; [discriminate|]. destruct (Nat.eqb_spec (List.length cps) (List.length ps)) as [L|]; [|discriminate]. intros [= <-].
  destruct (min_fold names n) as [H I]. exists (fold_left Z.min names n). split; [exact I|]. split; [exact H|]. now apply seen_general.
Qed.
