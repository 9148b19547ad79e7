(** What the properties of the camera-only tutorial talk about. *)
From Coq Require Import QArith String.
From Verif Require Import Base CotModel.
Open Scope list_scope.

(** A detection with box, class and score. *)
Definition detection (context : string) (time : Z) (boxes : list (list Q)) (classes : list Z) (scores : list Q) (i : nat) (o : object) : Prop :=
  o_context o = context /\ o_time o = time /\ nth_error boxes i = Some (o_box o) /\ nth_error classes i = Some (o_type o) /\ nth_error scores i = Some (o_score o) /\
  o_id o = (o_type o, i) /\ List.length (o_box o) = 7%nat /\ (0 <= o_type o <= 4)%Z.
(** A ground truth object that counts: seen by a camera and by the lidar. *)
Definition counts (g : truth) : Prop := g_camera g <> ""%string /\ g_points g <> 0%Z.
Inductive counted : list truth -> list truth -> Prop :=
| counted_nil : counted [] []
| counted_yes g l k : counts g -> counted l k -> counted (g :: l) (g :: k)
| counted_no g l k : ~ counts g -> counted l k -> counted (g :: l) k.
(** Its row in the columns: an unknown level counts as level 2, a missing box as zeros. *)
Definition truth_row (c : truth_columns) (i : nat) (g : truth) : Prop :=
  nth_error (t_frame_id c) i = Some (g_time g) /\ nth_error (t_type c) i = Some (g_type g) /\
  (exists b, nth_error (t_bbox c) i = Some b /\ (g_synced g = Some b \/ (g_synced g = None /\ b = [0; 0; 0; 0; 0; 0; 0]%Q))) /\
  (exists d, nth_error (t_difficulty c) i = Some d /\ ((g_level g = 0%Z /\ d = 2%Z) \/ (g_level g <> 0%Z /\ d = g_level g))).
Definition prediction_row (c : prediction_columns) (i : nat) (o : object) : Prop :=
  nth_error (p_frame_id c) i = Some (o_time o) /\ nth_error (p_bbox c) i = Some (o_box o) /\ nth_error (p_type c) i = Some (o_type o) /\ nth_error (p_score c) i = Some (o_score o).
