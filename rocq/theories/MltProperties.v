(** C151: point clouds in the tutorials on maps, on lidar data of the motion dataset and on the perception dataset. *)
From Coq Require Import QArith Lia.
From Verif Require Import Base ResultLib MltModel MltSpec MltProofs.
Open Scope list_scope.

(** The maps tutorial loads the first two frames. *)
Theorem C151_loaded (A : Type) (l : list A) : load_frames l [] 0 = firstn 2 l.
Proof. exact (load_exact l). Qed.
Print Assumptions C151_loaded.
(** Lidar data of the motion dataset: for each frame both returns of all lasers, each with its calibration and the pose of the frame. *)
Theorem C151_lidar (P D C X F : Type) (top : D -> P -> option C -> result (list X * list F * list X * list F)) (side : D -> option C -> result (list X * list F * list X * list F)) (all : list (laser_frame P D C)) r :
  extract_all top side all = Ok r -> Forall2 (fun f xy => l_lasers f <> [] /\ all_lasers top side f (l_lasers f) (fst xy) (snd xy)) all r.
Proof. exact (extract_exact top side all r). Qed.
Print Assumptions C151_lidar.
(** Points and features stay aligned. *)
Theorem C151_lidar_aligned (P D C X F : Type) (top : D -> P -> option C -> result (list X * list F * list X * list F)) (side : D -> option C -> result (list X * list F * list X * list F)) (all : list (laser_frame P D C)) r :
  (forall d p c x1 f1 x2 f2, top d p c = Ok (x1, f1, x2, f2) -> List.length x1 = List.length f1 /\ List.length x2 = List.length f2) ->
  (forall d c x1 f1 x2 f2, side d c = Ok (x1, f1, x2, f2) -> List.length x1 = List.length f1 /\ List.length x2 = List.length f2) ->
  extract_all top side all = Ok r -> Forall (fun xy => List.length (fst xy) = List.length (snd xy)) r.
Proof. exact (extract_aligned top side all r). Qed.
Print Assumptions C151_lidar_aligned.
(** The points drawn on the first camera image: those with that camera in their first projection, with place and range. *)
Theorem C151_projected (P : Type) (norm : P -> Q) names cps (ps : list P) r : Forall (fun cp => (3 <= List.length cp)%nat) cps -> projected_points norm names cps ps = Ok r ->
  exists camera, In camera names /\ (forall n, In n names -> (camera <= n)%Z) /\ seen_by norm camera cps ps r.
Proof. exact (projected_exact norm names cps ps r). Qed.
Print Assumptions C151_projected.
(** The maps tutorial draws for each frame the points of the first laser, moved into the frame of the map. *)
Theorem C151_maps frames r : plot_point_clouds_with_maps frames = Ok r ->
  Forall2 (fun f trace => exists first others, f_points f = first :: others /\ Forall2 (drawn (f_pose f) (f_offset f)) first trace) frames r.
Proof. exact (maps_exact frames r). Qed.
Print Assumptions C151_maps.
(** It does so for all frames with a pose, a laser and rows of six values. *)
Theorem C151_maps_accepts frames : (forall f, In f frames -> List.length (f_pose f) = 16%nat /\ exists first others, f_points f = first :: others /\ forall row, In row first -> List.length row = 6%nat) ->
  exists r, plot_point_clouds_with_maps frames = Ok r.
Proof. exact (maps_accepts frames). Qed.
Print Assumptions C151_maps_accepts.
(** The colour it calls intensity is not the intensity. *)
Theorem C151_colour_refuted : ~ (forall f t rest row p, plot_point_clouds_with_maps [f] = Ok [p :: t] -> f_points f = [row :: rest] -> (snd p == nth 1 row 0)%Q).
Proof. exact (colour_refuted ). Qed.
Print Assumptions C151_colour_refuted.

Example C151_nonvacuous_maps : exists x y z, plot_point_clouds_with_maps [MapFrame [0; -1; 0; 10; 1; 0; 0; 20; 0; 0; 1; 30; 0; 0; 0; 1]%Q (1, 2, 3)%Q [[[9; 8; 7; 1; 2; 3]%Q]; []]] = Ok [[(x, y, z, 9%Q)]] /\
  (x == 9)%Q /\ (y == 23)%Q /\ (z == 36)%Q.
Proof. do 3 eexists. split; [reflexivity|]. repeat split; reflexivity. Qed.
Example C151_nonvacuous_lidar : extract_all (fun d p c => Ok ([d; p], [c; c], [], [])) (fun d c => Ok ([d], [c], [d], [c])) [LaserFrame 7 [(1, 5); (2, 6)] [(2, 3)]; LaserFrame 8 [(3, 1)] [(3, 4); (3, 5)]]%Z
  = Ok [([5; 7; 6; 6], [None; None; Some 3; Some 3]); ([1; 1], [Some 4; Some 4])]%Z.
Proof. reflexivity. Qed.
Example C151_nonvacuous_projected : projected_points (fun q => q) [2; 1; 3]%Z [[1; 10; 20; 0; 0; 0]; [2; 1; 1; 1; 5; 5]; [1; 30; 40; 0; 0; 0]]%Z [5%Q; 6%Q; 7%Q]
  = Ok [[10%Q; 20%Q; 5%Q]; [30%Q; 40%Q; 7%Q]].
Proof. reflexivity. Qed.
